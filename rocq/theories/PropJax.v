(** C109: the JAX frontends compute the same 2-D and 3-D transforms as the NumPy ones. *)
From Coq Require Import String Reals ZArith List Bool Arith Lia.
From Coquelicot Require Import Complex.
From Verif Require Import Base BaseProofs NdArray NdProofs StackProofs Backend Backend2d Core2d ComplexOps FilterBank2d Frontend2d Images Pad2d Eval2d PropShapes2d PropValues2d PropErrors2d
  Backend3d Core3d Frontend3d FilterBank3d Eval3d PropScat3d PropValues3d Tf1d JaxUpto Jax2d3d.
Import ListNotations.
Local Open Scope Z_scope.
Local Ltac Zify.zify_post_hook ::= Z.div_mod_to_equations.

(** Construction and call, with each frontend. *)
Definition numpy_run2 (p : params2) (x : nd C) : res (output2 (nd C)) := (s <- ScatteringNumPy2D p ;; scattering2 np2 s x)%res.
Definition jax_run2 (p : params2) (x : nd C) : res (output2 (nd C)) := (s <- ScatteringJax2D p ;; jax_call2 s x)%res.
Definition numpy_run3 sph (p : params3) (x : nd C) : res (nd C) := (s <- new3 sph p ;; numpy_scattering3 s x)%res.
Definition jax_run3 sph (p : params3) (x : nd C) : res (nd C) := (s <- HarmonicScatteringJax3D sph p ;; jax_scattering3 s x)%res.

Lemma new2_shape (be : backend2 (nd C) (nd C)) f p s : new2 be f p = Ok s -> 0 <= a_J p /\ 2 ^ a_J p <= a_M p /\ 2 ^ a_J p <= a_N p.
Proof.
  unfold new2. destruct (Z.ltb_spec (a_J p) 0); [destruct (_ || _)%bool; discriminate|]. destruct (Z.ltb_spec (a_M p) (2 ^ a_J p)); [discriminate|]. destruct (Z.ltb_spec (a_N p) (2 ^ a_J p)); [discriminate|]. intros _. lia.
Qed.
Lemma upto_not {A} (r r' : res A) : upto r r' -> r <> Err ValueError -> r' = r.
Proof. intros [H|[H _]]; [auto|contradiction]. Qed.
Lemma shape2_dec p (s : list nat) : {pre | s = pre ++ [in_M p; in_N p]} + {forall pre, s <> pre ++ [in_M p; in_N p]}.
Proof.
  destruct (split_last2 s) as [[[pre m] n]|] eqn:E.
  - apply split_last2_inv in E. destruct (Nat.eq_dec m (in_M p)) as [->|Hm].
    + destruct (Nat.eq_dec n (in_N p)) as [->|Hn]; [left; eauto|]. right. intros pre' E'. rewrite E in E'. apply (f_equal (@rev nat)) in E'. rewrite !rev_app_distr in E'. cbn in E'. congruence.
    + right. intros pre' E'. rewrite E in E'. apply (f_equal (@rev nat)) in E'. rewrite !rev_app_distr in E'. cbn in E'. congruence.
  - right. intros pre' E'. rewrite E', split_last2_app in E. discriminate.
Qed.
Lemma real_dec (d : dtype) : {d = Real} + {d <> Real}.
Proof. destruct d; [now left|right; discriminate|right; discriminate]. Qed.
(** The NumPy transform never raises ValueError. *)
Lemma numpy2_no_value_error p s x : ScatteringNumPy2D p = Ok s -> nd_wf x -> scattering2 np2 s x <> Err ValueError.
Proof.
  intros Hs Hw. pose proof (new2_shape _ _ _ _ Hs) as (HJ & HM & HN). assert (Hr : runs2 np2 p s) by (left; auto).
  destruct (runs2_object np2 p s HJ HM HN Hr) as (f & Es & Hu & Ef).
  destruct (shape2_dec p (nd_shape x)) as [(pre & Hsh)|Hsh].
  2:{ unfold scattering2. rewrite Es, check_bad by assumption. discriminate. }
  destruct (known_dec p) as [Hk|Hk].
  2:{ unfold scattering2. rewrite Es, (check_good np2 p f x pre Hu HJ HM HN Hsh). destruct (known_dec p); [contradiction|]. discriminate. }
  destruct (Z.eq_dec (a_J p) 0) as [E0|E0].
  - destruct (real_dec (nd_dtype x)) as [Hd|Hd].
    { rewrite (C102_zero_scale_refuted p s pre x E0 ltac:(rewrite E0 in HM; cbn in HM; lia) ltac:(rewrite E0 in HN; cbn in HN; lia) Hs Hk (conj Hw (conj Hd Hsh))). discriminate. }
    destruct (of_imgs_intro x pre _ _ Hw Hsh) as (ims & E & Hi). assert (E1 : 2 ^ a_J p = 1) by (rewrite E0; reflexivity).
    assert (P : (0 < in_M p)%nat /\ (0 < in_N p)%nat) by (unfold in_M, in_N, padded_M, padded_N; rewrite E1; destruct (a_pre_pad p); lia). destruct P as [P1 P2].
    unfold scattering2. rewrite Es, (check_good np2 p _ x pre Hu ltac:(lia) ltac:(lia) ltac:(lia) Hsh). destruct (known_dec p); [|contradiction]. cbn [bind].
    cbn [b2_shape numpy_backend2]. rewrite Hsh, batch_signal_app. set (d := nd_dtype x) in *. clearbody d. rewrite E, (input_flat np2 Hu) by assumption. cbn [bind]. unfold scattering2d, paths2. cbn [c_pad object2]. rewrite Ef.
    pose proof (flat_ok pre _ _ ims Hi) as Hf. unfold in_M, in_N in *.
    assert (K : forall B M N im, b2_rfft np2 (of_imgs d B M N im) = Err TypeError) by (intros; cbn [b2_rfft numpy_backend2]; unfold np2_rfft, real_check; cbn [of_imgs nd_dtype]; now destruct d).
    destruct (a_pre_pad p); [cbn [bind]; rewrite K; discriminate|].
    assert (EP : pads2 p = (Z.of_nat 1, Z.of_nat 1, Z.of_nat 1, Z.of_nat 1)) by (unfold pads2, pad_sizes, padded_size; rewrite E1, !Z.div_1_r; repeat f_equal; lia).
    unfold b2_Pad at 1, numpy_backend2 at 1. rewrite EP, np2_pad_of by first [exact Hf|lia]. cbn [bind]. rewrite K. discriminate. 1-2: assumption.
  - assert (Hp : valid2 p) by (unfold valid2; lia). destruct (C102_errors np2 p s x Hp Hr Hw) as (_ & _ & H3). destruct (nd_dtype x) eqn:Hd.
    + destruct (proj2 (C102_call np2 p s x Hp Hr Hw)) as (out & ->); [|discriminate]. split; [exact Hk|]. eauto.
    + rewrite (H3 pre Hsh Hk) by discriminate. discriminate.
    + rewrite (H3 pre Hsh Hk) by discriminate. discriminate.
Qed.

(** In two dimensions the outcome, result or exception, is that of NumPy for all arguments and arrays. *)
Theorem C109_jax_2d : forall p x, nd_wf x -> jax_run2 p x = numpy_run2 p x.
Proof.
  intros p x Hw. unfold jax_run2, numpy_run2. change (ScatteringJax2D p) with (ScatteringNumPy2D p). destruct (ScatteringNumPy2D p) as [s|e] eqn:Hs; [|reflexivity]. cbn [bind].
  apply upto_not; [apply scattering2_upto|]. now apply (numpy2_no_value_error p).
Qed.
Print Assumptions C109_jax_2d.

(** In three dimensions: whenever NumPy returns, JAX returns the same; for an array that is not empty the converse holds, and
    JAX raises what NumPy raises, but possibly TypeError instead of ValueError. *)
Theorem C109_jax_3d : forall sph p x,
  (forall y, numpy_run3 sph p x = Ok y -> jax_run3 sph p x = Ok y) /\
  (~ In 0%nat (nd_shape x) ->
    (forall y, jax_run3 sph p x = Ok y -> numpy_run3 sph p x = Ok y) /\
    (forall e, numpy_run3 sph p x = Err e -> jax_run3 sph p x = Err e \/ (e = ValueError /\ jax_run3 sph p x = Err TypeError))).
Proof.
  intros sph p x. assert (H : upto (numpy_run3 sph p x) (jax_run3 sph p x)).
  { unfold numpy_run3, jax_run3, HarmonicScatteringJax3D. destruct (new3 sph p) as [s|e]; [|apply upto_refl]. cbn [bind]. apply scattering3_upto. }
  destruct H as [H|[H H']]; rewrite H.
  - split; [auto|]. intros _. split; [auto|]. intros e ->. now left.
  - rewrite H'. split; [discriminate|]. intros _. split; [discriminate|]. intros e [= <-]. now right.
Qed.
Print Assumptions C109_jax_3d.
(** For the accepted arguments the outcome is the same whatever the array, unless it is empty. *)
Theorem C109_jax_3d_accepted : forall sph p x, valid3 p -> nd_wf x -> ~ In 0%nat (nd_shape x) -> jax_run3 sph p x = numpy_run3 sph p x.
Proof.
  intros sph p x Hv Hw H0. destruct (C109_jax_3d sph p x) as (H1 & H2). specialize (H2 H0). destruct H2 as (_ & H2).
  destruct (numpy_run3 sph p x) as [y|e] eqn:E; [now apply H1|]. destruct (H2 e eq_refl) as [H|(-> & _)]; [exact H|]. exfalso. revert E.
  unfold numpy_run3. rewrite (new3_ok sph p Hv). cbn [bind]. set (F := solid_harmonic_filter_bank _ _ _ _ _ _ _). set (g := gaussian_filter_bank _ _ _ _ _). intros E.
  assert (HF : bank_of p F) by apply bank_ready.
  destruct (C79_errors numpy_scattering3 p F g x (or_introl eq_refl) Hv) as (E1 & E2).
  assert (D : (exists batch, nd_shape x = batch ++ [Mx p; Nx p; Dx p]) \/ forall batch, nd_shape x <> batch ++ [Mx p; Nx p; Dx p]).
  { destruct (split_last3 (nd_shape x)) as [[[[pre m] n] o]|] eqn:Es.
    - apply split_last3_inv in Es. rewrite Es. destruct (list_eq_dec Nat.eq_dec [m; n; o] [Mx p; Nx p; Dx p]) as [->|Hn]; [left; eauto|]. right. intros batch E'. apply Hn.
      apply (f_equal (@rev nat)) in E'. rewrite !rev_app_distr in E'. cbn in E'. congruence.
    - right. intros batch E'. rewrite E' in Es. unfold split_last3 in Es. rewrite rev_app_distr in Es. discriminate. }
  destruct D as [(batch & Es)|D]; [|rewrite E1 in E by assumption; discriminate].
  destruct (nd_dtype x) eqn:Hd; [|rewrite (E2 batch Es) in E by discriminate; discriminate|rewrite (E2 batch Es) in E by discriminate; discriminate].
  destruct (proj2 (C79_call numpy_scattering3 p F g x (or_introl eq_refl) Hv HF Hw)) as (y & Hy); [|congruence]. exists batch. split; [exact Hd|]. split; [exact Es|].
  intros Hin. apply H0. rewrite Es. apply in_or_app. now left.
Qed.
Print Assumptions C109_jax_3d_accepted.

Example C109_instance :
  (exists out, jax_run2 (mk_params2 2 4 5 8 2 false "list") (mk_nd Real [3; 2; 4; 5]%nat (repeat (RtoC 1) 120)) = Ok out) /\
  jax_run2 (mk_params2 2 4 5 8 2 false "list") (mk_nd Complex [4; 5]%nat (repeat (RtoC 1) 20)) = Err TypeError /\
  forall sph, exists out, jax_run3 sph p_ex x_ex = Ok out.
Proof.
  set (p := mk_params2 2 4 5 8 2 false "list"). assert (Hp : valid2 p) by (unfold valid2; cbn; lia).
  destruct (proj2 (proj1 (proj1 (C102_constructor p))) ltac:(cbn; lia)) as (s & Hs). assert (Hr : runs2 np2 p s) by (left; auto). split; [|split].
  - rewrite C109_jax_2d by reflexivity. unfold numpy_run2. rewrite Hs. cbn [bind]. apply (C102_call np2 p s _ Hp Hr); [reflexivity|]. split; [right; reflexivity|]. exists [3; 2]%nat. split; reflexivity.
  - rewrite C109_jax_2d by reflexivity. unfold numpy_run2. rewrite Hs. cbn [bind]. destruct (C102_errors np2 p s (mk_nd Complex [4; 5]%nat (repeat (RtoC 1) 20)) Hp Hr eq_refl) as (_ & _ & E3). apply (E3 []); [reflexivity|right; reflexivity|discriminate].
  - intros sph. rewrite C109_jax_3d_accepted; [|apply p_ex_valid|reflexivity|cbn; lia]. unfold numpy_run3. rewrite (new3_ok sph p_ex p_ex_valid). cbn [bind].
    apply (C79_call numpy_scattering3 p_ex _ _ x_ex (or_introl eq_refl) p_ex_valid); [apply bank_ready|reflexivity|]. exists [2; 1]%nat. repeat split. cbn. lia.
Qed.
