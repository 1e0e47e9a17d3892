(** C82, the converse direction: on a signal without an empty axis TensorFlow returns only where NumPy returns, so it raises on
    every signal on which NumPy raises. *)
From Coq Require Import String Reals ZArith QArith List Bool Arith Lia Lra.
From Coquelicot Require Import Complex.
From Verif Require Import Base BaseProofs NdArray Backend Core1d Utils1d Utils1dProofs Frontend1d Frontend1dProofs Spec1d Factory1d FactoryProofs ComplexOps NdProofs FilterBank1d FilterBank1dProofs Construct1d
  PropFilters1d PropShapes1d Jtfs JtfsFront JtfsConstruct JtfsTotal PropJtfs JtfsRun PropJtfsRuns Torch1d TorchRel TorchCore TorchJtfs PropTorch Tf1d TfRel TfJtfs TfInst TfFront JaxUpto PropTf TfBack.
Import ListNotations.
Local Open Scope nat_scope.
Local Open Scope res_scope.

(** 1-D.  Whatever TensorFlow returns, at either precision, NumPy returns on the same signal. *)
Theorem C82_tensorflow_1d_converse : forall support p out d x y',
  ~ In 0 (nd_shape x) -> (s <- ScatteringTensorFlow1D support p out ;; tf_call s (mk_tf d x)) = Ok y' ->
  (s <- Scattering1D support p out ;; scattering np s x) = Ok (out_map tf_val y').
Proof.
  intros support p out d x y' Hx E. unfold ScatteringTensorFlow1D in E. destruct (Scattering1D support p out) as [s|e]; [|discriminate]. cbn [bind] in *.
  destruct (scattering_back s (mk_tf d x) Hx y' E) as [G _]. cbn [tf_val] in G. rewrite G. destruct y'; reflexivity.
Qed.
Print Assumptions C82_tensorflow_1d_converse.

(** The joint transform. *)
Theorem C82_tensorflow_joint_converse : forall support p out d x y',
  ~ In 0 (nd_shape x) -> (s <- TimeFrequencyScatteringTensorFlow support p out ;; tf_callj s (mk_tf d x)) = Ok y' ->
  (s <- TimeFrequencyScattering support p out ;; jtfs_scattering np sgnR s x) = Ok (jout_map tf_val y').
Proof.
  intros support p out d x y' Hx E. unfold TimeFrequencyScatteringTensorFlow in E. destruct (TimeFrequencyScattering support p out) as [s|e]; [|discriminate]. cbn [bind] in *.
  destruct (jtfs_back sgnR s (mk_tf d x) Hx y' E) as [G _]. cbn [tf_val] in G. rewrite G. destruct y'; reflexivity.
Qed.
Print Assumptions C82_tensorflow_joint_converse.

(** At single precision the two directions meet: TensorFlow raises exactly where NumPy raises. *)
Definition raises {A} (r : res A) : Prop := exists e, r = Err e.
Lemma raises_iff {A B} (r : res A) (r' : res B) : (forall y, r = Ok y -> exists y', r' = Ok y') -> (forall y', r' = Ok y' -> exists y, r = Ok y) -> (raises r <-> raises r').
Proof.
  intros F G. destruct r as [y|e], r' as [y'|e']; unfold raises; split; intros [z Hz]; try discriminate; try (eexists; reflexivity).
  - destruct (F y eq_refl). discriminate.
  - destruct (G y' eq_refl). discriminate.
Qed.
Theorem C82_tensorflow_1d_raises : forall support p out x, ~ In 0 (nd_shape x) ->
  (raises (s <- Scattering1D support p out ;; scattering np s x) <-> raises (s <- ScatteringTensorFlow1D support p out ;; tf_call s (mk_tf F32 x))).
Proof.
  intros support p out x Hx. apply raises_iff.
  - intros y E. inv_bind E. match goal with H : Scattering1D _ _ _ = Ok ?s |- _ => destruct (C82_tensorflow_1d_partial support p out s F32 x y H E) as (s' & y' & A & B & _); [discriminate|] end.
    exists y'. now rewrite A.
  - intros y' E. eexists. exact (C82_tensorflow_1d_converse support p out F32 x y' Hx E).
Qed.
Print Assumptions C82_tensorflow_1d_raises.
Theorem C82_tensorflow_joint_raises : forall support p out x, ~ In 0 (nd_shape x) ->
  (raises (s <- TimeFrequencyScattering support p out ;; jtfs_scattering np sgnR s x) <-> raises (s <- TimeFrequencyScatteringTensorFlow support p out ;; tf_callj s (mk_tf F32 x))).
Proof.
  intros support p out x Hx. apply raises_iff.
  - intros y E. inv_bind E. match goal with H : TimeFrequencyScattering _ _ _ = Ok ?s |- _ => destruct (C82_tensorflow_joint_partial support p out s F32 x y H E) as (s' & y' & A & B & _); [discriminate|] end.
    exists y'. now rewrite A.
  - intros y' E. eexists. exact (C82_tensorflow_joint_converse support p out F32 x y' Hx E).
Qed.
Print Assumptions C82_tensorflow_joint_raises.

(** A case of the converse: TensorFlow returns on a batch of three signals of ones, hence so does NumPy. *)
Example C82_converse_instance : forall N, (4 <= N)%Z -> exists y', ~ In 0 (nd_shape (ones3 N)) /\
  (s <- ScatteringTensorFlow1D (fun _ _ => 1%Z) (mk_params 2 N (QInt 8) TNone SNone 2) "array" ;; tf_call s (mk_tf F32 (ones3 N))) = Ok y'.
Proof.
  intros N HN. destruct (C82_1d_instance N HN) as (s & y & Hs & _ & Hy). destruct (C82_tensorflow_1d_partial _ _ _ s F32 _ (OutArray y) Hs Hy) as (s' & y' & A & B & _); [discriminate|].
  exists y'. split; [|now rewrite A]. cbn. intros [|[|[]]]; lia.
Qed.
(** A case where both raise: a complex signal. *)
Example C82_raises_instance : forall N, (4 <= N)%Z -> exists x : nd C, ~ In 0 (nd_shape x) /\ nd_shape x = [Z.to_nat N] /\
  raises (s <- ScatteringTensorFlow1D (fun _ _ => 1%Z) (mk_params 2 N (QInt 8) TNone SNone 2) "array" ;; tf_call s (mk_tf F32 x)).
Proof.
  intros N HN. pose (x := mk_nd Complex [Z.to_nat N] (repeat (RtoC 1) (Z.to_nat N)) : nd C). exists x.
  assert (Hx : ~ In 0 (nd_shape x)) by (cbn; intros [|[]]; lia). split; [exact Hx|]. split; [reflexivity|]. apply C82_tensorflow_1d_raises; [exact Hx|].
  match goal with |- raises ?r => destruct r as [y|e] eqn:E; [|now exists e] end. exfalso. inv_bind E. apply scattering_real in E. discriminate.
Qed.
