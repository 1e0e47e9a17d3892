(** Outcomes that differ only by the exception of an impossible reshape, and the 1-D and joint JAX transforms. *)
From Coq Require Import String Reals ZArith List Bool Arith Lia.
From Coquelicot Require Import Complex.
From Verif Require Import Base BaseProofs NdArray Backend Core1d Utils1d Frontend1d ComplexOps Jtfs JtfsFront Tf1d.
Import ListNotations.
Local Open Scope res_scope.

(** ** Equal results, and equal exceptions but for ValueError, which may become TypeError *)
Definition upto {A} (r r' : res A) : Prop := r' = r \/ (r = Err ValueError /\ r' = Err TypeError).
Lemma upto_refl {A} (r : res A) : upto r r.
Proof. now left. Qed.
Lemma upto_jax {A} (r : res A) : upto r (jax_reshape_error r).
Proof. destruct r as [a|e]; [now left|]. destruct e; cbn; (now left) || (now right). Qed.
Lemma upto_bind {A B} (r r' : res A) (f g : A -> res B) : upto r r' -> (forall a, upto (f a) (g a)) -> upto (bind r f) (bind r' g).
Proof. intros [->|[-> ->]] H; [|now right]. destruct r; [apply H|apply upto_refl]. Qed.
Lemma upto_mapM {A B} (f g : A -> res B) l : (forall a, upto (f a) (g a)) -> upto (mapM f l) (mapM g l).
Proof.
  intros H. induction l as [|a l IH]; [apply upto_refl|]. cbn [mapM]. apply upto_bind; [apply H|]. intros b. apply upto_bind; [exact IH|]. intros bs. apply upto_refl.
Qed.

Ltac up := first [apply upto_refl | apply upto_jax | apply upto_bind; [up|intros ?; up] | apply upto_mapM; intros ?; up
  | match goal with |- upto (match ?e with _ => _ end) _ => destruct e; up end | idtac].

Section OneD.
Context {P : Type} (sgn : P -> Z).
Notation np := (numpy_backend complex_ops).
Notation jx := (jax_backend complex_ops).
Lemma order0_upto (phi : filter (nd C) P) U V l a : upto (order0 np phi U V l a) (order0 jx phi U V l a).
Proof. unfold order0. up. Qed.
Lemma order1_modulus_upto U (f : filter (nd C) P) k : upto (order1_modulus np U f k) (order1_modulus jx U f k).
Proof. unfold order1_modulus. up. Qed.
Lemma order2_upto (phi : filter (nd C) P) U n1 j1 k1 l a q : upto (order2 np phi U n1 j1 k1 l a q) (order2 jx phi U n1 j1 k1 l a q).
Proof. unfold order2. destruct q as [n2 f]. destruct (_ <? _)%Z; up. Qed.
Lemma order1_upto (phi : filter (nd C) P) psi2s U l a q : upto (order1 np phi psi2s U l a q) (order1 jx phi psi2s U l a q).
Proof.
  unfold order1. destruct q as [n1 f]. apply upto_bind; [apply order1_modulus_upto|]. intros m. apply upto_bind; [apply upto_refl|]. intros h. apply upto_bind; [destruct a; up|]. intros p1.
  apply upto_bind; [|intros ?; up]. destruct psi2s; [|up]. apply upto_mapM. intros q. apply order2_upto.
Qed.
Lemma scattering1d_upto U (phi : filter (nd C) P) psis l a : upto (scattering1d np U phi psis l a) (scattering1d jx U phi psis l a).
Proof.
  unfold scattering1d. apply upto_bind; [apply upto_refl|]. intros h. apply upto_bind; [apply order0_upto|]. intros p0. apply upto_bind; [apply upto_refl|]. intros psi1.
  apply upto_bind; [|intros ?; up]. apply upto_mapM. intros q. apply order1_upto.
Qed.
Lemma scattering_upto (s : scat1d (nd C) P) x : upto (scattering np s x) (scattering jx s x).
Proof.
  unfold scattering. apply upto_bind; [apply upto_refl|]. intros _. apply upto_bind; [apply upto_refl|]. intros _. apply upto_bind; [apply upto_refl|]. intros [b n].
  apply upto_bind; [apply upto_jax|]. intros y. apply upto_bind; [apply upto_refl|]. intros U. apply upto_bind; [apply upto_refl|]. intros l. apply upto_bind; [apply upto_refl|]. intros a.
  apply upto_bind; [apply scattering1d_upto|]. intros g. apply upto_bind; [|intros S1; apply upto_refl]. apply upto_mapM. intros q. unfold finish_path.
  apply upto_bind; [apply upto_refl|]. intros r. apply upto_bind; [apply upto_refl|]. intros c. apply upto_bind; [apply upto_jax|]. intros ?. apply upto_refl.
Qed.

Lemma width1_upto (phi : filter (nd C) P) U l a f : upto (width1 np phi U l a f) (width1 jx phi U l a f).
Proof. unfold width1. apply upto_bind; [apply order1_modulus_upto|]. intros m. up. Qed.
Lemma width2_upto (f : filter (nd C) P) l a u : upto (width2 np f l a u) (width2 jx f l a u).
Proof. unfold width2. destruct u as [U j1]. destruct (_ <? _)%Z; up. Qed.
Lemma widthfirst_upto U (phi : filter (nd C) P) psi1 psi2 l a : upto (widthfirst np U phi psi1 psi2 l a) (widthfirst jx U phi psi1 psi2 l a).
Proof.
  unfold widthfirst. apply upto_bind; [apply upto_refl|]. intros h. apply upto_bind; [apply order0_upto|]. intros p0. apply upto_bind; [apply upto_mapM; intros f; apply width1_upto|]. intros l1.
  apply upto_bind; [apply upto_refl|]. intros S1. apply upto_bind; [|intros ?; apply upto_refl]. apply upto_mapM. intros [n2 f]. unfold width2_all. apply upto_bind; [apply upto_mapM; intros u; apply width2_upto|].
  intros ys. apply upto_refl.
Qed.
Lemma frequency_upto (phi : filter (nd C) P) psis l a b w : upto (frequency_scattering np sgn phi psis l a b w) (frequency_scattering jx sgn phi psis l a b w).
Proof.
  unfold frequency_scattering. apply upto_bind; [apply upto_refl|]. intros x. apply upto_bind; [apply upto_refl|]. intros y. apply upto_bind; [apply upto_refl|]. intros z.
  apply upto_mapM. intros [n f]. unfold freq1. up.
Qed.
Lemma joint_upto U (phi : filter (nd C) P) psi1 psi2 l a phi_fr psis_fr lf af : upto (joint_scattering np sgn U phi psi1 psi2 l a phi_fr psis_fr lf af) (joint_scattering jx sgn U phi psi1 psi2 l a phi_fr psis_fr lf af).
Proof.
  unfold joint_scattering. apply upto_bind; [apply widthfirst_upto|]. intros [[p0 S1] Y]. apply upto_bind; [apply frequency_upto|]. intros f. apply upto_bind; [|intros ?; apply upto_refl].
  apply upto_mapM. intros w. apply frequency_upto.
Qed.
Lemma frequency_averaging_upto (phi : filter (nd C) P) l a p : upto (frequency_averaging np phi l a p) (frequency_averaging jx phi l a p).
Proof. unfold frequency_averaging. destruct a; [up|up|up]. Qed.
Lemma format_upto (phi : filter (nd C) P) l a phi_fr lf af ot fm p : upto (format_path np false phi l a phi_fr lf af ot fm p) (format_path jx false phi l a phi_fr lf af ot fm p).
Proof.
  unfold format_path. apply upto_bind; [apply upto_refl|]. intros c. apply upto_bind; [unfold time_averaging; destruct a; up|].
  intros q. apply upto_bind; [destruct af; try apply upto_refl; destruct (_ =? _)%Z; try apply upto_refl; apply frequency_averaging_upto|]. intros r. apply upto_refl.
Qed.
Lemma jtfs_upto (s : jtfs (nd C) P) x : upto (jtfs_scattering np sgn s x) (jtfs_scattering jx sgn s x).
Proof.
  unfold jtfs_scattering. apply upto_bind; [|intros [p0 ps]; apply upto_refl]. unfold jpaths. apply upto_bind; [apply upto_refl|]. intros _. apply upto_bind; [apply upto_refl|]. intros _. apply upto_bind; [apply upto_refl|]. intros [b n].
  apply upto_bind; [apply upto_jax|]. intros y. apply upto_bind; [apply upto_refl|]. intros U. apply upto_bind; [apply upto_refl|]. intros l. apply upto_bind; [apply upto_refl|]. intros a.
  apply upto_bind; [apply upto_refl|]. intros lf. apply upto_bind; [apply upto_refl|]. intros af. apply upto_bind; [apply joint_upto|]. intros g. apply upto_bind.
  - unfold average_and_format. destruct g as [p0 ps]. apply upto_bind; [apply upto_refl|]. intros q. apply upto_bind; [|intros ?; apply upto_refl]. apply upto_mapM. intros p. apply format_upto.
  - intros [p0 ps]. apply upto_bind.
    + unfold jfinish0. apply upto_bind; [apply upto_refl|]. intros c. apply upto_bind; [apply upto_jax|]. intros ?. apply upto_refl.
    + intros q. apply upto_bind; [|intros ?; apply upto_refl]. apply upto_mapM. intros p. unfold jfinish. apply upto_bind; [apply upto_refl|]. intros c. apply upto_bind; [apply upto_jax|]. intros ?. apply upto_refl.
Qed.
End OneD.
