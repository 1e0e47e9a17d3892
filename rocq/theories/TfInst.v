(** The TensorFlow and JAX backends refine the NumPy one. *)
From Coq Require Import String ZArith List Bool Arith Lia.
From Verif Require Import Base BaseProofs NdArray Backend NdProofs Core1d Utils1d Frontend1d Frontend1dProofs Jtfs JtfsFront Torch1d TorchRel TorchCore TorchJtfs TfRel TfJtfs Tf1d.
Import ListNotations.
Local Open Scope nat_scope.
Local Open Scope res_scope.

Section Inst.
Context {K : Type} (o : ops K).
Notation nb := (numpy_backend o).
Notation sim := (TorchRel.sim false).

(** A tensor holds the array [x], of dtype [k], at precision [d]. *)
Definition tf_rel (d : fdtype) (k : dtype) (x : nd K) (t : tft K) : Prop := t = mk_tf d x /\ nd_dtype x = k.
(** A JAX array: the array itself. *)
Definition jax_rel (d : fdtype) (k : dtype) (x t : nd K) : Prop := t = x /\ nd_dtype x = k.

Lemma sim_intro {B} (Rl : nd K -> B -> Prop) (a : res (nd K)) (b : res B) : (forall y, a = Ok y -> exists u, b = Ok u /\ Rl y u) -> sim Rl a b.
Proof. intros G. destruct a as [y|e]; [now apply G|discriminate]. Qed.

Lemma fft_rows_tf d f (x y : nd K) : np_fft_rows d f x = Ok y -> tf_fft_rows d f x = Ok y /\ nd_dtype y = d.
Proof.
  unfold np_fft_rows, tf_fft_rows. intros E. inv_bind E. destruct v as [pre n]. rewrite E0. cbn [bind]. destruct (Nat.eqb n 0); [discriminate|].
  split; [exact E|]. now injection E as <-.
Qed.
Lemma tf_stack_ref d k l l' dim : Forall2 (tf_rel d k) l l' -> sim (tf_rel d k) (stack l dim) (tf_stack l' dim).
Proof.
  intros F. apply sim_intro. intros y E.
  assert (El : map tf_val l' = l /\ forallb (fun t => fdtype_eqb d (tf_prec t) && dtype_eqb k (nd_dtype (tf_val t))) l' = true).
  { clear E. induction F as [|x t l l' [-> Hk] F [IH1 IH2]]; [split; reflexivity|]. cbn [map forallb tf_val tf_prec]. rewrite IH1, IH2, Hk.
    split; [reflexivity|]. destruct d, k; reflexivity. }
  destruct El as [El Eb]. destruct F as [|x t l l' [-> Hk] F]; [discriminate|]. unfold tf_stack. cbn [tf_prec].
  assert (Eb' : forallb (tf_same (mk_tf d x)) (mk_tf d x :: l') = true).
  { rewrite <- Eb. generalize (mk_tf d x :: l'). clear -Hk. intros l. induction l as [|a l IH]; [reflexivity|]. cbn [forallb]. rewrite IH.
    unfold tf_same. cbn [tf_prec tf_val]. now rewrite Hk. }
  rewrite Eb', El, E. cbn [to_runtime lift1 bind]. eexists. split; [reflexivity|]. split; [reflexivity|].
  unfold stack in E. destruct (_ <? 0)%Z; [discriminate|]. unfold stack_at in E. destruct (Nat.ltb _ _); [discriminate|]. destruct (forallb _ _) in E; [|discriminate].
  injection E as <-. exact Hk.
Qed.
Lemma tf_unpad_frequency_ref d (x : nd K) n s : nd_dtype x = Real -> length (nd_shape x) = 4 -> forall y, np_unpad_frequency x n s = Ok y ->
  tf_unpad_frequency (mk_tf d x) n s = Ok (mk_tf d y) /\ nd_dtype y = Real.
Proof.
  intros Hx Hl y E. unfold np_unpad_frequency, tf_unpad_frequency in *. cbn [tf_val tf_prec]. destruct s as [s|]; [|discriminate].
  destruct (s =? 0)%Z; [discriminate|]. destruct (nd_shape x) as [|a [|b [|m [|r [|? ?]]]]]; try discriminate Hl.
  change (split_last2 [a; b; m; r]) with (Ok ([a; b], m, r) : res (list nat * nat * nat)) in E. cbn [bind] in E. injection E as <-. split; [|exact Hx].
  cbn [app]. replace (prod [r]) with r by (cbn; lia). reflexivity.
Qed.

Lemma tf_refines : refines o (tf_backend o) tf_rel.
Proof.
  constructor.
  - intros d k x t [-> _]. reflexivity.
  - intros d x t [-> Hx]. apply sim_intro. intros y E. cbn [numpy_backend tf_backend be_rfft] in *. unfold np_rfft, tf_rfft, real_check, tf_real_check in *. inv_bind E.
    cbn [tf_val]. rewrite E0. cbn [bind]. destruct (fft_rows_tf _ _ _ _ E) as [-> Hy]. eexists. split; [reflexivity|]. now split.
  - intros d x t [-> Hx]. apply sim_intro. intros y E. cbn [numpy_backend tf_backend be_cfft] in *. unfold np_cfft, tf_cfft, complex_check, tf_complex_check in *. inv_bind E.
    cbn [tf_val]. rewrite E0. cbn [bind]. destruct (fft_rows_tf _ _ _ _ E) as [-> Hy]. eexists. split; [reflexivity|]. now split.
  - intros d x t [-> Hx]. apply sim_intro. intros y E. cbn [numpy_backend tf_backend be_ifft] in *. unfold np_ifft, tf_ifft, complex_check, tf_complex_check in *. inv_bind E.
    cbn [tf_val]. rewrite E0. cbn [bind]. destruct (fft_rows_tf _ _ _ _ E) as [-> Hy]. eexists. split; [reflexivity|]. now split.
  - intros d x t [-> Hx]. apply sim_intro. intros y E. cbn [numpy_backend tf_backend be_irfft] in *. unfold np_irfft, tf_irfft, complex_check, tf_complex_check in *. inv_bind E.
    cbn [tf_val]. rewrite E0. cbn [bind]. destruct (fft_rows_tf _ _ _ _ E) as [-> Hy]. eexists. split; [reflexivity|]. now split.
  - intros d x t w [-> Hx]. apply sim_intro. intros y E. cbn [numpy_backend tf_backend be_cdgmm] in *. unfold np_cdgmm, tf_cdgmm in *. cbn [tf_val tf_prec].
    destruct (negb _); [discriminate|]. destruct (list_eq_dec _ _ _); [|discriminate]. destruct (_ && _); [discriminate|]. injection E as <-.
    eexists. split; [reflexivity|]. split; reflexivity.
  - intros d x t q [-> Hx]. apply sim_intro. intros y E. cbn [numpy_backend tf_backend be_subsample] in *. unfold np_subsample, tf_subsample, complex_check, tf_complex_check in *.
    cbn [tf_val tf_prec]. inv_bind E. rewrite E0. cbn [bind]. destruct q as [k|]; [|discriminate]. inv_bind E. destruct v0 as [pre n]. rewrite E1. cbn [bind].
    destruct (k =? 0)%Z; [discriminate|]. destruct (k <? 0)%Z; [discriminate|]. destruct (Nat.eqb _ _); [|discriminate]. injection E as <-.
    eexists. split; [reflexivity|]. split; reflexivity.
  - intros d x t [-> Hx]. apply sim_intro. intros y E. injection E as <-. eexists. split; [reflexivity|]. split; [reflexivity|]. cbn [nd_dtype]. now rewrite Hx.
  - intros d x t [-> Hx]. apply sim_intro. intros y E. cbn [numpy_backend tf_backend be_average_global] in *. unfold np_average_global, tf_average_global, real_check, tf_real_check in *.
    cbn [tf_val tf_prec]. inv_bind E. rewrite E0. cbn [bind]. inv_bind E. destruct v0 as [pre n]. rewrite E1. cbn [bind]. injection E as <-.
    eexists. split; [reflexivity|]. split; reflexivity.
  - intros d x t l r [-> Hx]. apply sim_intro. intros y E. cbn [numpy_backend tf_backend be_pad] in *. unfold np_pad, tf_pad in *. cbn [tf_val tf_prec]. inv_bind E.
    destruct v as [pre n]. rewrite E0. cbn [bind]. destruct (_ || _)%Z; [discriminate|]. destruct (_ || _)%Z; [discriminate|]. injection E as <-.
    eexists. split; [reflexivity|]. split; [reflexivity|exact Hx].
  - intros d x t a b [-> Hx]. apply sim_intro. intros y E. cbn [numpy_backend tf_backend be_unpad] in *. unfold np_unpad, tf_unpad in *. cbn [tf_val tf_prec]. inv_bind E.
    destruct v as [pre n]. rewrite E0. cbn [bind]. injection E as <-. eexists. split; [reflexivity|]. split; [reflexivity|exact Hx].
  - intros d x t s [-> Hx]. apply sim_intro. intros y E. cbn [numpy_backend tf_backend be_reshape_input] in *. unfold np_reshape_input, tf_reshape_input in *. cbn [tf_val tf_prec].
    rewrite E. cbn [to_runtime lift1 bind]. eexists. split; [reflexivity|]. split; [reflexivity|]. unfold reshape_infer in E. destruct (Nat.eqb _ 0); [discriminate|].
    destruct (Nat.eqb _ 0); [|discriminate]. now injection E as <-.
  - intros d x t b n [-> Hx]. apply sim_intro. intros y E. cbn [numpy_backend tf_backend be_reshape_output] in *. unfold np_reshape_output, tf_reshape_output in *. cbn [tf_val tf_prec].
    rewrite E. cbn [to_runtime lift1 bind]. eexists. split; [reflexivity|]. split; [reflexivity|]. unfold reshape in E. destruct (Nat.eqb _ _); [|discriminate].
    now injection E as <-.
  - intros d k l l' dim F. now apply tf_stack_ref.
  - intros d k x t p [-> Hx]. apply sim_intro. intros y E. cbn [numpy_backend tf_backend be_pad_frequency] in *. unfold np_pad_frequency, tf_pad_frequency in *. cbn [tf_val tf_prec]. inv_bind E.
    destruct v as [pre n]. rewrite E0. cbn [bind]. destruct (p <? 0)%Z; [discriminate|]. injection E as <-. eexists. split; [reflexivity|]. split; [reflexivity|exact Hx].
  - intros d k x t [-> Hx]. apply sim_intro. intros y E. cbn [numpy_backend tf_backend be_swap] in *. unfold np_swap, tf_swap in *. cbn [tf_val tf_prec]. inv_bind E.
    destruct v as [[pre m] n]. rewrite E0. cbn [bind]. injection E as <-. eexists. split; [reflexivity|]. split; [reflexivity|exact Hx].
  - intros d x t n s [-> Hx] Hl. apply sim_intro. intros y E. destruct (tf_unpad_frequency_ref d x n s Hx Hl y E) as [G Hy]. exists (mk_tf d y). split; [exact G|]. now split.
  - intros d x t [-> Hx]. cbn [numpy_backend tf_backend be_split_frequency]. unfold np_split_frequency, tf_split_frequency. cbn [tf_val tf_prec].
    destruct (split_last2 (nd_shape x)) as [[[pre m] n]|e]; [|discriminate]. cbn [bind]. destruct (Nat.eqb m 0); [discriminate|]. apply sim_ok.
    induction (seq 0 m) as [|i l IH]; cbn [map]; constructor; [|exact IH]. split; [reflexivity|exact Hx].
Qed.

Lemma jax_same (a b : res (nd K)) d k : (forall y, a = Ok y -> b = Ok y /\ nd_dtype y = k) -> sim (jax_rel d k) a b.
Proof. intros G. apply sim_intro. intros y E. destruct (G y E) as [-> Hy]. exists y. split; [reflexivity|]. now split. Qed.
(** The dtype of a result, from the TensorFlow case. *)
Lemma tf_dtype d k (a : res (nd K)) (b : res (tft K)) : sim (tf_rel d k) a b -> forall y, a = Ok y -> nd_dtype y = k.
Proof. intros G y E. rewrite E in G. destruct G as (u & _ & _ & Hy). exact Hy. Qed.
Lemma jax_refines : refines o (jax_backend o) jax_rel.
Proof.
  pose proof tf_refines as T. constructor.
  - intros d k x t [-> _]. reflexivity.
  - intros d x t [-> Hx]. apply jax_same. intros y E. split; [exact E|]. eapply tf_dtype; [apply (rf_rfft _ _ _ T F32 x (mk_tf F32 x)); now split|exact E].
  - intros d x t [-> Hx]. apply jax_same. intros y E. split; [exact E|]. eapply tf_dtype; [apply (rf_cfft _ _ _ T F32 x (mk_tf F32 x)); now split|exact E].
  - intros d x t [-> Hx]. apply jax_same. intros y E. split; [exact E|]. eapply tf_dtype; [apply (rf_ifft _ _ _ T F32 x (mk_tf F32 x)); now split|exact E].
  - intros d x t [-> Hx]. apply jax_same. intros y E. split; [exact E|]. eapply tf_dtype; [apply (rf_irfft _ _ _ T F32 x (mk_tf F32 x)); now split|exact E].
  - intros d x t w [-> Hx]. apply jax_same. intros y E. split; [exact E|]. eapply tf_dtype; [apply (rf_cdgmm _ _ _ T F32 x (mk_tf F32 x) w); now split|exact E].
  - intros d x t q [-> Hx]. apply jax_same. intros y E. split.
    + cbn [jax_backend be_subsample]. unfold jax_subsample. change (np_subsample o x q = Ok y) in E. now rewrite E.
    + eapply tf_dtype; [apply (rf_subsample _ _ _ T F32 x (mk_tf F32 x) q); now split|exact E].
  - intros d x t [-> Hx]. apply jax_same. intros y E. split; [exact E|]. eapply tf_dtype; [apply (rf_modulus _ _ _ T F32 x (mk_tf F32 x)); now split|exact E].
  - intros d x t [-> Hx]. apply jax_same. intros y E. split; [exact E|]. eapply tf_dtype; [apply (rf_average _ _ _ T F32 x (mk_tf F32 x)); now split|exact E].
  - intros d x t l r [-> Hx]. apply jax_same. intros y E. split; [exact E|]. eapply tf_dtype; [apply (rf_pad _ _ _ T F32 x (mk_tf F32 x) l r); now split|exact E].
  - intros d x t a b [-> Hx]. apply jax_same. intros y E. split; [exact E|]. eapply tf_dtype; [apply (rf_unpad _ _ _ T F32 x (mk_tf F32 x) a b); now split|exact E].
  - intros d x t s [-> Hx]. apply jax_same. intros y E. split.
    + cbn [jax_backend be_reshape_input]. change (np_reshape_input x s = Ok y) in E. now rewrite E.
    + eapply tf_dtype; [apply (rf_reshape_input _ _ _ T F32 x (mk_tf F32 x) s); now split|exact E].
  - intros d x t b n [-> Hx]. apply jax_same. intros y E. split.
    + cbn [jax_backend be_reshape_output]. change (np_reshape_output x b n = Ok y) in E. now rewrite E.
    + eapply tf_dtype; [apply (rf_reshape_output _ _ _ T F32 x (mk_tf F32 x) b n); now split|exact E].
  - intros d k l l' dim F. apply jax_same. intros y E. split.
    + cbn [jax_backend be_stack]. replace l' with l; [exact E|]. clear E. induction F as [|x t l l' [-> _] F IH]; [reflexivity|now rewrite IH].
    + eapply tf_dtype; [apply (rf_stack _ _ _ T F32 k l (map (mk_tf F32) l) dim)|exact E]. clear E.
      induction F as [|x t l l' [_ Hx] F IH]; cbn [map]; constructor; [now split|exact IH].
  - intros d k x t p [-> Hx]. apply jax_same. intros y E. split; [exact E|]. eapply tf_dtype; [apply (rf_pad_frequency _ _ _ T F32 k x (mk_tf F32 x) p); now split|exact E].
  - intros d k x t [-> Hx]. apply jax_same. intros y E. split; [exact E|]. eapply tf_dtype; [apply (rf_swap _ _ _ T F32 k x (mk_tf F32 x)); now split|exact E].
  - intros d x t n s [-> Hx] Hl. apply jax_same. intros y E. split; [exact E|]. eapply tf_dtype; [apply (rf_unpad_frequency _ _ _ T F32 x (mk_tf F32 x) n s); [now split|exact Hl]|exact E].
  - intros d x t [-> Hx]. cbn [numpy_backend jax_backend be_split_frequency]. unfold np_split_frequency.
    destruct (split_last2 (nd_shape x)) as [[[pre m] n]|e]; [|discriminate]. cbn [bind]. destruct (Nat.eqb m 0); [discriminate|]. apply sim_ok.
    induction (seq 0 m) as [|i l IH]; cbn [map]; constructor; [|exact IH]. split; [reflexivity|exact Hx].
Qed.
End Inst.
