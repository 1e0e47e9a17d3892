(** Property C102: when Scattering2D succeeds, and what it raises otherwise. *)
From Coq Require Import String Reals ZArith List Bool Arith Lia.
From Coquelicot Require Import Complex.
From Verif Require Import Base BaseProofs NdArray NdProofs StackProofs Backend Backend2d Core2d ComplexOps FilterBank2d Frontend2d Images Pad2d Eval2d PropShapes2d PropValues2d.
Import ListNotations.
Local Open Scope Z_scope.
Local Ltac Zify.zify_post_hook ::= Z.div_mod_to_equations.

Theorem C102_constructor : forall p,
  let outcome := fun r : res (scat2 (nd C) (nd C)) =>
    ((exists s, r = Ok s) <-> 0 <= a_J p /\ 2 ^ a_J p <= a_M p /\ 2 ^ a_J p <= a_N p) /\
    (a_M p < 1 \/ a_N p < 1 \/ (0 <= a_J p /\ Z.min (a_M p) (a_N p) < 2 ^ a_J p) -> r = Err RuntimeError) /\
    (a_J p < 0 -> 1 <= a_M p -> 1 <= a_N p -> r = Err TypeError) in
  outcome (ScatteringNumPy2D p) /\ outcome (ScatteringTensorFlow2D p).
Proof.
  intros p. cbv zeta. assert (K : forall (be : backend2 (nd C) (nd C)) f, ((exists s, new2 be f p = Ok s) <-> 0 <= a_J p /\ 2 ^ a_J p <= a_M p /\ 2 ^ a_J p <= a_N p) /\
    (a_M p < 1 \/ a_N p < 1 \/ (0 <= a_J p /\ Z.min (a_M p) (a_N p) < 2 ^ a_J p) -> new2 be f p = Err RuntimeError) /\
    (a_J p < 0 -> 1 <= a_M p -> 1 <= a_N p -> new2 be f p = Err TypeError)).
  { intros be f. unfold new2. destruct (Z.ltb_spec (a_J p) 0) as [HJ|HJ].
    - destruct (Z.leb_spec (a_M p) 0) as [HM|HM], (Z.leb_spec (a_N p) 0) as [HN|HN]; cbn [orb]; (split; [split; [intros (s & E); discriminate|lia]|]); split; intros; try reflexivity; lia.
    - assert (0 < 2 ^ a_J p) by (apply Z.pow_pos_nonneg; lia).
      destruct (Z.ltb_spec (a_M p) (2 ^ a_J p)) as [HM|HM], (Z.ltb_spec (a_N p) (2 ^ a_J p)) as [HN|HN]; cbn [orb].
      1-3: split; [split; [intros (s & E); discriminate|lia]|]; split; intros; try reflexivity; lia.
      destruct (compute_padding (a_M p) (a_N p) (a_J p)) as [Mp Np]. destruct (filter_bank (Z.to_nat Mp) (Z.to_nat Np) (a_J p) (a_L p)) as [phi psi].
      split; [split; [auto|eauto]|]. split; intros; lia. }
  split; apply K.
Qed.
Print Assumptions C102_constructor.

(** An object of the NumPy class, or of the TensorFlow class without pre_pad (with it: C66_tensorflow_refuted), and its backend. *)
Definition runs2 (be : backend2 (nd C) (nd C)) (p : params2) (s : scat2 (nd C) (nd C)) : Prop :=
  be = np2 /\ ScatteringNumPy2D p = Ok s \/ be = tf2 /\ a_pre_pad p = false /\ ScatteringTensorFlow2D p = Ok s.
Definition known_type (p : params2) : Prop := a_out_type p = "array"%string \/ a_out_type p = "list"%string.
Lemma known_dec p : {known_type p} + {~ known_type p}.
Proof.
  unfold known_type. destruct (string_dec (a_out_type p) "array"); [left; now left|]. destruct (string_dec (a_out_type p) "list"); [left; now right|]. right. intros [|]; contradiction.
Qed.
Lemma runs2_object be p s : 0 <= a_J p -> 2 ^ a_J p <= a_M p -> 2 ^ a_J p <= a_N p -> runs2 be p s -> exists f, s = object2 p f /\ usual2 be /\
  f = if a_pre_pad p then (fun x => Ok x) else b2_Pad be (pads2 p) (a_M p, a_N p).
Proof.
  intros HJ HM HN [(-> & E)|(-> & Hpp & E)].
  - unfold ScatteringNumPy2D in E. rewrite new2_eval in E by assumption. injection E as <-. eexists. split; [reflexivity|]. split; [apply usual2_numpy|reflexivity].
  - unfold ScatteringTensorFlow2D in E. rewrite new2_eval in E by assumption. injection E as <-. rewrite Hpp. eexists. split; [reflexivity|]. split; [apply usual2_tf|reflexivity].
Qed.
Lemma check_bad be p f x : usual2 be -> (forall pre, nd_shape x <> pre ++ [in_M p; in_N p]) -> check2 be (object2 p f) x = Err RuntimeError.
Proof.
  intros (_ & Es & _) H. unfold check2. rewrite Es. destruct (split_last2 (nd_shape x)) as [[[pre m] n]|] eqn:E; [|reflexivity]. apply split_last2_inv in E. cbn [bind c_args object2 c_M_padded c_N_padded].
  specialize (H pre). rewrite E in H. unfold in_M, in_N, padded_M, padded_N in H.
  destruct (a_pre_pad p); cbn [negb andb]; rewrite ?andb_false_r, ?andb_true_r; cbn [raise_if bind].
  - destruct (Z.eqb_spec (Z.of_nat n) (padded_size (a_N p) (a_J p))) as [E1|]; [|reflexivity]. destruct (Z.eqb_spec (Z.of_nat m) (padded_size (a_M p) (a_J p))) as [E2|]; [|reflexivity]. exfalso. apply H. rewrite <- (Nat2Z.id m), <- (Nat2Z.id n), E1, E2. reflexivity.
  - destruct (Z.eqb_spec (Z.of_nat n) (a_N p)) as [E1|]; [|reflexivity]. destruct (Z.eqb_spec (Z.of_nat m) (a_M p)) as [E2|]; [|reflexivity]. exfalso. apply H. rewrite <- (Nat2Z.id m), <- (Nat2Z.id n), E1, E2. reflexivity.
Qed.

Lemma check_good be p f x pre : usual2 be -> 0 <= a_J p -> 2 ^ a_J p <= a_M p -> 2 ^ a_J p <= a_N p -> nd_shape x = pre ++ [in_M p; in_N p] ->
  check2 be (object2 p f) x = if known_dec p then Ok tt else Err RuntimeError.
Proof.
  intros (_ & Es & _) HJ HM HN Hs. unfold check2. rewrite Es, Hs, split_last2_app. cbn [bind c_args object2 c_M_padded c_N_padded].
  assert (0 < 2 ^ a_J p) by (apply Z.pow_pos_nonneg; lia). assert (Z.of_nat (padded_M p) = padded_size (a_M p) (a_J p)) as E1 by (unfold padded_M, padded_size; nia).
  assert (Z.of_nat (padded_N p) = padded_size (a_N p) (a_J p)) as E2 by (unfold padded_N, padded_size; nia).
  assert (Eo : (String.eqb (a_out_type p) "array" || String.eqb (a_out_type p) "list")%bool = if known_dec p then true else false).
  { destruct (known_dec p) as [[-> | ->]|H0]; [reflexivity|reflexivity|]. unfold known_type in H0. destruct (String.eqb_spec (a_out_type p) "array"); [tauto|]. destruct (String.eqb_spec (a_out_type p) "list"); [tauto|]. reflexivity. }
  rewrite Eo. unfold in_M, in_N. destruct (a_pre_pad p); cbn [negb andb]; rewrite ?andb_false_r, ?andb_true_r, ?E1, ?E2, ?Z2Nat.id, !Z.eqb_refl by lia; cbn [negb orb raise_if bind]; now destruct (known_dec p).
Qed.
Lemma pad_any p be s x pre : valid2 p -> runs2 be p s -> nd_wf x -> nd_shape x = pre ++ [in_M p; in_N p] -> exists ims,
  b2_reshape_infer be [in_M p; in_N p] x = Ok (of_imgs (nd_dtype x) [prod pre] (in_M p) (in_N p) ims) /\ imgs_ok [prod pre] (in_M p) (in_N p) ims /\
  exists ims', c_pad s (of_imgs (nd_dtype x) [prod pre] (in_M p) (in_N p) ims) = Ok (of_imgs (nd_dtype x) [prod pre] (Mp p) (Np p) ims').
Proof.
  intros Hp Hr Hw Hs. destruct (of_imgs_intro x pre _ _ Hw Hs) as (ims & E & Hi). pose proof Hp as (HJ & HM & HN). destruct (in_pos p Hp) as [P1 P2]. change (M_in p) with (in_M p) in P1. change (N_in p) with (in_N p) in P2.
  pose proof (flat_ok pre _ _ ims Hi) as Hf. exists ims. split; [|split; [exact Hf|]].
  - destruct (runs2_object be p s ltac:(lia) HM HN Hr) as (f & _ & Hu & _). rewrite E at 1. now apply input_flat.
  - destruct (pos2 p Hp) as [Q1 Q2]. destruct (pads2_nat p Hp) as (EP & EM & EN). destruct (runs2_object be p s ltac:(lia) HM HN Hr) as (f & -> & _ & ->). cbn [c_pad object2]. unfold in_M, in_N in *. destruct (a_pre_pad p) eqn:Hpp.
    + exists ims. reflexivity.
    + rewrite EP. destruct Hr as [(-> & _)|(-> & _ & _)]; cbn [b2_Pad numpy_backend2 tf_backend2].
      * rewrite np2_pad_of by first [exact Hf|lia]. rewrite EM, EN. eauto.
      * unfold tf2_pad. replace (a_M p, a_N p) with (Z.of_nat (Z.to_nat (a_M p)), Z.of_nat (Z.to_nat (a_N p))) by (f_equal; lia). rewrite special_pad_of by first [exact Hf|lia|apply pad_ok_frontend; lia]. rewrite EM, EN. eauto.
Qed.
Theorem C102_errors : forall be p s x, valid2 p -> runs2 be p s -> nd_wf x ->
  ((forall pre, nd_shape x <> pre ++ [in_M p; in_N p]) -> scattering2 be s x = Err RuntimeError) /\
  (~ known_type p -> scattering2 be s x = Err RuntimeError) /\
  (forall pre, nd_shape x = pre ++ [in_M p; in_N p] -> known_type p -> nd_dtype x <> Real -> scattering2 be s x = Err TypeError).
Proof.
  intros be p s x Hp Hr Hw. pose proof Hp as (HJ & HM & HN). destruct (runs2_object be p s ltac:(lia) HM HN Hr) as (f & Es & Hu & Ef).
  assert (Bad : (forall pre, nd_shape x <> pre ++ [in_M p; in_N p]) -> scattering2 be s x = Err RuntimeError) by (intros H; unfold scattering2; now rewrite Es, check_bad).
  split; [exact Bad|]. split.
  - intros Hk. destruct (split_last2 (nd_shape x)) as [[[pre m] n]|] eqn:E.
    + apply split_last2_inv in E. destruct (Nat.eq_dec m (in_M p)) as [->|Hm].
      * destruct (Nat.eq_dec n (in_N p)) as [->|Hn]; [|apply Bad; intros pre' E'; rewrite E in E'; apply (f_equal (@rev nat)) in E'; rewrite !rev_app_distr in E'; cbn in E'; congruence].
        unfold scattering2. rewrite Es, (check_good be p f x pre Hu ltac:(lia) HM HN E). now destruct (known_dec p).
      * apply Bad. intros pre' E'. rewrite E in E'. apply (f_equal (@rev nat)) in E'. rewrite !rev_app_distr in E'. cbn in E'. congruence.
    + apply Bad. intros pre' E'. rewrite E', split_last2_app in E. discriminate.
  - intros pre E Hk Hd. destruct (pad_any p be s x pre Hp Hr Hw E) as (ims & R1 & _ & ims' & R2).
    unfold scattering2. rewrite Es at 1. rewrite (check_good be p f x pre Hu ltac:(lia) HM HN E). destruct (known_dec p); [|contradiction]. cbn [bind].
    destruct Hu as (Hu1 & Hu2 & _). rewrite Hu2, E, batch_signal_app, R1. cbn [bind]. unfold scattering2d, paths2. rewrite R2. cbn [bind].
    assert (Rf : b2_rfft be (of_imgs (nd_dtype x) [prod pre] (Mp p) (Np p) ims') = Err TypeError).
    { destruct Hr as [(-> & _)|(-> & _ & _)]; cbn [b2_rfft numpy_backend2 tf_backend2]; unfold np2_rfft, real_check; cbn [of_imgs nd_dtype]; now destruct (nd_dtype x). }
    rewrite Rf. reflexivity.
    Unshelve. all: apply (in_pos p Hp).
Qed.
Print Assumptions C102_errors.
Theorem C102_call : forall be p s x, valid2 p -> runs2 be p s -> nd_wf x ->
  ((exists out, scattering2 be s x = Ok out) <-> known_type p /\ exists pre, nd_dtype x = Real /\ nd_shape x = pre ++ [in_M p; in_N p]).
Proof.
  intros be p s x Hp Hr Hw. destruct (C102_errors be p s x Hp Hr Hw) as (E1 & E2 & E3). split.
  - intros (out & E). destruct (known_dec p) as [Hk|Hk]; [|rewrite E2 in E by assumption; discriminate]. split; [exact Hk|].
    destruct (split_last2 (nd_shape x)) as [[[pre m] n]|] eqn:Es.
    2:{ rewrite E1 in E; [discriminate|]. intros pre' E'. rewrite E', split_last2_app in Es. discriminate. }
    apply split_last2_inv in Es. assert (m = in_M p /\ n = in_N p) as [-> ->].
    { destruct (Nat.eq_dec m (in_M p)), (Nat.eq_dec n (in_N p)); try (split; assumption); exfalso; (rewrite E1 in E; [discriminate|]); intros pre' E'; rewrite Es in E'; apply (f_equal (@rev nat)) in E'; rewrite !rev_app_distr in E'; cbn in E'; congruence. }
    exists pre. split; [|exact Es]. destruct (nd_dtype x) eqn:Ed; [reflexivity| |]; rewrite (E3 pre Es Hk) in E by discriminate; discriminate.
  - intros (Hk & pre & Hd & Hs). pose proof Hp as (HJ & HM & HN). destruct (of_imgs_intro x pre _ _ Hw Hs) as (ims & E & Hi). rewrite Hd in E. rewrite E.
    destruct Hr as [(-> & Hn)|(-> & Hpp & Hn)].
    + apply (numpy_new p Hp) in Hn. subst s. destruct Hk as [Ho|Ho]; [destruct (numpy_array p pre ims Hp Hi Ho) as (y & H & _); eauto|]. eexists. apply (numpy_list p pre ims Hp Hi Ho).
    + apply (tf_new p Hp) in Hn. subst s. destruct Hk as [Ho|Ho]; [destruct (tf_array p pre ims Hp Hi Hpp Ho) as (y & H & _); eauto|]. eexists. apply (tf_list p pre ims Hp Hi Hpp Ho).
Qed.
Print Assumptions C102_call.

(** J = 0 is accepted by the constructor, but there is no low-pass filter at resolution 0. *)
Theorem C102_zero_scale_refuted : forall p s pre x, a_J p = 0 -> 1 <= a_M p -> 1 <= a_N p -> ScatteringNumPy2D p = Ok s -> known_type p -> batch2 p pre x -> scattering2 np2 s x = Err IndexError.
Proof.
  intros p s pre x HJ HM HN Hs Hk (Hw & Hd & Hsh). assert (E0 : 2 ^ a_J p = 1) by (rewrite HJ; reflexivity).
  destruct (runs2_object np2 p s ltac:(lia) ltac:(lia) ltac:(lia) (or_introl (conj eq_refl Hs))) as (f & -> & Hu & ->).
  destruct (of_imgs_intro x pre _ _ Hw Hsh) as (ims & E & Hi). rewrite Hd in E.
  assert (P : (0 < in_M p)%nat /\ (0 < in_N p)%nat) by (unfold in_M, in_N, padded_M, padded_N; rewrite E0; destruct (a_pre_pad p); lia). destruct P as [P1 P2].
  assert (Q : (0 < Mp p)%nat /\ (0 < Np p)%nat) by (unfold Mp, Np, padded_size; rewrite E0; lia). destruct Q as [Q1 Q2].
  unfold scattering2. rewrite (check_good np2 p _ x pre Hu ltac:(lia) ltac:(lia) ltac:(lia) Hsh). destruct (known_dec p); [|contradiction]. cbn [bind].
  cbn [b2_shape numpy_backend2]. rewrite Hsh, batch_signal_app, E.
  rewrite (input_flat np2 Hu) by assumption. cbn [bind]. unfold scattering2d, paths2. cbn [c_pad object2].
  assert (Ep : exists ims', imgs_ok [prod pre] (Mp p) (Np p) ims' /\ (if a_pre_pad p then fun x0 => Ok x0 else np2_pad complex_ops (pads2 p) (a_M p, a_N p)) (of_imgs Real [prod pre] (in_M p) (in_N p) ims) = Ok (of_imgs Real [prod pre] (Mp p) (Np p) ims')).
  { pose proof (flat_ok pre _ _ ims Hi) as Hf. unfold in_M, in_N in *. destruct (a_pre_pad p); [exists ims; split; [exact Hf|reflexivity]|].
    assert (EP : pads2 p = (Z.of_nat 1, Z.of_nat 1, Z.of_nat 1, Z.of_nat 1)) by (unfold pads2, pad_sizes, padded_size; rewrite E0, !Z.div_1_r; repeat f_equal; lia).
    rewrite EP, np2_pad_of by first [exact Hf|lia]. eexists. split; [|f_equal; f_equal; unfold Mp, Np, padded_size; rewrite E0; lia].
    apply (imgs_ok_map _ (Z.to_nat (a_M p)) (Z.to_nat (a_N p))); [|exact Hf]. intros im _. unfold pad_img. rewrite img_length. unfold Mp, Np, padded_size. rewrite E0. f_equal; lia. }
  destruct Ep as (ims' & Hi' & Ep). unfold b2_Pad, numpy_backend2. rewrite Ep. cbn [bind b2_rfft]. rewrite np2_rfft_of by assumption. cbn [bind]. unfold lowpass2. cbn [c_phi object2].
  replace (g_levels (fst (bank2 p))) with (@nil (nd C)); [reflexivity|]. unfold bank2, filter_bank, phi_2d. rewrite HJ. reflexivity.
  Unshelve. all: assumption.
Qed.
Print Assumptions C102_zero_scale_refuted.

Example C102_instance :
  ScatteringNumPy2D (mk_params2 3 7 9 8 2 false "array") = Err RuntimeError /\ ScatteringNumPy2D (mk_params2 (-1) 8 8 8 2 false "array") = Err TypeError /\
  exists s, ScatteringTensorFlow2D (mk_params2 2 4 5 8 2 false "list") = Ok s /\
    (exists out, scattering2 tf2 s (mk_nd Real [3; 2; 4; 5]%nat (repeat (RtoC 1) 120)) = Ok out) /\ (exists out, scattering2 tf2 s (mk_nd Real [0; 4; 5]%nat []) = Ok out) /\
    scattering2 tf2 s (mk_nd Real [5; 4]%nat (repeat (RtoC 1) 20)) = Err RuntimeError /\ scattering2 tf2 s (mk_nd Complex [1; 4; 5]%nat (repeat (RtoC 1) 20)) = Err TypeError.
Proof.
  split; [apply (C102_constructor (mk_params2 3 7 9 8 2 false "array")); cbn; lia|]. split; [apply (C102_constructor (mk_params2 (-1) 8 8 8 2 false "array")); cbn; lia|].
  set (p := mk_params2 2 4 5 8 2 false "list"). assert (Hp : valid2 p) by (unfold valid2; cbn; lia).
  destruct (proj2 (proj1 (proj2 (C102_constructor p))) ltac:(cbn; lia)) as (s & Hs). exists s. split; [exact Hs|].
  assert (Hr : runs2 tf2 p s) by (right; auto). split; [|split; [|split]].
  - apply (C102_call tf2 p s _ Hp Hr); [reflexivity|]. split; [right; reflexivity|]. exists [3; 2]%nat. split; reflexivity.
  - apply (C102_call tf2 p s _ Hp Hr); [reflexivity|]. split; [right; reflexivity|]. exists [0]%nat. split; reflexivity.
  - destruct (C102_errors tf2 p s (mk_nd Real [5; 4]%nat (repeat (RtoC 1) 20)) Hp Hr eq_refl) as (E1 & _). apply E1. intros pre E. apply (f_equal (@rev nat)) in E. rewrite rev_app_distr in E. discriminate.
  - destruct (C102_errors tf2 p s (mk_nd Complex [1; 4; 5]%nat (repeat (RtoC 1) 20)) Hp Hr eq_refl) as (_ & _ & E3). apply (E3 [1]%nat); [reflexivity|right; reflexivity|discriminate].
Qed.
Example C102_zero_instance : exists s, ScatteringNumPy2D (mk_params2 0 4 5 8 2 false "array") = Ok s /\ scattering2 np2 s (mk_nd Real [4; 5]%nat (repeat (RtoC 1) 20)) = Err IndexError.
Proof.
  set (p := mk_params2 0 4 5 8 2 false "array"). destruct (proj2 (proj1 (proj1 (C102_constructor p))) ltac:(cbn; lia)) as (s & Hs). exists s. split; [exact Hs|].
  apply (C102_zero_scale_refuted p s [] _); cbn; try lia; [exact Hs|now left|]. repeat split.
Qed.
