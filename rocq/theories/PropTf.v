(** C82: the TensorFlow and JAX frontends compute the same 1-D and joint transforms as the NumPy ones. *)
From Coq Require Import String Reals ZArith QArith List Bool Arith Lia Lra.
From Coquelicot Require Import Complex.
From Verif Require Import Base BaseProofs NdArray Backend Core1d Utils1d Utils1dProofs Frontend1d Frontend1dProofs Spec1d Factory1d FactoryProofs ComplexOps NdProofs FilterBank1d FilterBank1dProofs Construct1d
  PropFilters1d PropShapes1d Jtfs JtfsFront JtfsConstruct JtfsTotal PropJtfs JtfsRun PropJtfsRuns Torch1d TorchRel TorchCore TorchJtfs PropTorch Tf1d TfRel TfJtfs TfInst TfFront JaxUpto.
Import ListNotations.
Local Open Scope nat_scope.
Local Open Scope res_scope.

(** ** A signal that the NumPy transform accepts is real *)
Lemma padded_real (x y z u : nd C) k l r : be_reshape_input np x k = Ok y -> be_pad np y l r = Ok z -> be_rfft np z = Ok u -> nd_dtype x = Real.
Proof.
  intros E1 E2 E3. cbn [numpy_backend be_reshape_input be_pad be_rfft] in *. unfold np_reshape_input, reshape_infer in E1. destruct (Nat.eqb _ 0); [discriminate|]. destruct (Nat.eqb _ 0); [|discriminate]. injection E1 as <-.
  unfold np_pad in E2. inv_bind E2. destruct v as [pre n]. destruct (_ || _)%bool; [discriminate|]. destruct (_ || _)%bool; [discriminate|]. injection E2 as <-.
  unfold np_rfft in E3. inv_bind E3. unfold real_check in E0. cbn [map_rows nd_dtype] in E0. unfold is_real in E0. cbn [nd_dtype] in E0. destruct (nd_dtype x); (reflexivity || discriminate).
Qed.
Lemma scattering_real (s : scat1d (nd C) R) x y : scattering np s x = Ok y -> nd_dtype x = Real.
Proof.
  rewrite scattering_paths. intros E. inv_bind E. inv_bind E. inv_bind E. match goal with H : paths _ _ _ = _ |- _ => rename H into G end. clear E.
  unfold paths in G. inv_bind G. match goal with p : (list nat * nat)%type |- _ => destruct p as [batch n] end.
  do 5 inv_bind G. match goal with H : scattering1d _ _ _ _ _ _ = _ |- _ => unfold scattering1d in H; inv_bind H end. eapply padded_real; eassumption.
Qed.
Lemma jtfs_real (s : jtfs (nd C) R) x y : jtfs_scattering np sgnR s x = Ok y -> nd_dtype x = Real.
Proof.
  intros E. unfold jtfs_scattering in E. inv_bind E. clear E. match goal with H : jpaths _ _ _ _ = _ |- _ => rename H into G end.
  unfold jpaths in G. inv_bind G. inv_bind G. inv_bind G. match goal with p : (list nat * nat)%type |- _ => destruct p as [batch n] end.
  do 7 inv_bind G. match goal with H : joint_scattering _ _ _ _ _ _ _ _ _ _ _ _ = _ |- _ => unfold joint_scattering in H; inv_bind H end.
  match goal with H : widthfirst _ _ _ _ _ _ _ = _ |- _ => unfold widthfirst in H; inv_bind H end. eapply padded_real; eassumption.
Qed.

(** ** What "the same output" means for TensorFlow *)
(** The precisions of the tensors of an output: single, except for the zeroth order, which has precision [d0]. *)
Definition precisions (d0 : fdtype) (y : output (tft C)) : Prop :=
  match y with
  | OutArray t => tf_prec t = F32
  | OutList l => Forall (fun q => tf_prec (p_coef q) = match p_n q with [] => d0 | _ => F32 end) l
  | OutDict l => Forall (fun e => tf_prec (snd e) = match fst e with [] => d0 | _ => F32 end) l
  end.
Definition jprecisions (d0 : fdtype) (y : joutput (tft C)) : Prop :=
  match y with
  | JArray t => tf_prec t = F32
  | JList p0 l => tf_prec (p_coef p0) = d0 /\ Forall (fun q => tf_prec (q_coef q) = F32) l
  | JDict l => Forall (fun e => tf_prec (snd e) = F32 \/ tf_prec (snd e) = d0) l
  end.

Lemma out_ref_map d0 y y' : out_ref tf_rel d0 y y' -> out_map tf_val y' = y /\ precisions d0 y'.
Proof.
  intros H. destruct H as [x t [-> _]|l l' F|l l' F]; cbn [out_map precisions].
  - split; reflexivity.
  - induction F as [|p q l l' [[E1 E1'] [E2 E3]] F [IH1 IH2]]; [split; [reflexivity|constructor]|]. injection IH1 as IH1. split.
    + cbn [map]. rewrite IH1. f_equal. f_equal. rewrite E1, <- E2, <- E3. now destruct p.
    + constructor; [|exact IH2]. rewrite E1, <- E3. reflexivity.
  - induction F as [|p q l l' [E1 [E2 _]] F [IH1 IH2]]; [split; [reflexivity|constructor]|]. injection IH1 as IH1. split.
    + cbn [map]. rewrite IH1. f_equal. f_equal. rewrite E2, <- E1. now destruct p.
    + constructor; [|exact IH2]. rewrite E2, <- E1. reflexivity.
Qed.
Lemma jout_ref_map d0 y y' : jout_ref tf_rel d0 y y' -> jout_map tf_val y' = y /\ jprecisions d0 y'.
Proof.
  intros H. destruct H as [x t [-> _]|p0 p0' l l' [[E1 E1'] [E2 E3]] F|l l' F]; cbn [jout_map jprecisions].
  - split; reflexivity.
  - assert (G : map (fun p => set_coef (tf_val (q_coef p)) p) l' = l /\ Forall (fun q => tf_prec (q_coef q) = F32) l').
    { induction F as [|p q l l' H F [IH1 IH2]]; [split; [reflexivity|constructor]|]. destruct H as [[A _] B1 B2 B3 B4 B5 B6 B7 B8]. split.
      - cbn [map]. rewrite IH1. f_equal. unfold set_coef. rewrite A, <- B1, <- B2, <- B3, <- B4, <- B5, <- B6, <- B7, <- B8. now destruct p.
      - constructor; [now rewrite A|exact IH2]. }
    destruct G as [-> G]. split; [|split; [now rewrite E1|exact G]]. f_equal. rewrite E1, <- E2, <- E3. now destruct p0.
  - induction F as [|p q l l' [E1 (d & Hd & E2 & _)] F [IH1 IH2]]; [split; [reflexivity|constructor]|]. injection IH1 as IH1. split.
    + cbn [map]. rewrite IH1. f_equal. f_equal. rewrite E2, <- E1. now destruct p.
    + constructor; [|exact IH2]. now rewrite E2.
Qed.

Lemma out_type_of support p out s : Scattering1D support p out = Ok s -> s_out_type s = out.
Proof. intros H. apply new_inv in H. destruct H as (b & Qs & T & l & phi & psi1s & psi2s & _ & _ & _ & _ & _ & _ & ->). reflexivity. Qed.

(** ** C82, TensorFlow, 1-D *)
(** For every constructor argument and every signal at either precision for which NumPy returns, TensorFlow returns the same
    coefficients, paths, keys and container; the result has single precision, except for the zeroth order without local
    averaging.  Left out: double precision with T='global' and the container 'array' (see the refutation below), and the
    exceptions raised where NumPy raises. *)
Theorem C82_tensorflow_1d_partial : forall support p out s d x y,
  Scattering1D support p out = Ok s -> scattering np s x = Ok y ->
  (d = F64 -> out = "array"%string -> s_average s <> Ok Global) ->
  exists s' y', ScatteringTensorFlow1D support p out = Ok s' /\ tf_call s' (mk_tf d x) = Ok y' /\
    out_map tf_val y' = y /\ precisions (match s_average s with Ok Local => F32 | _ => d end) y'.
Proof.
  intros support p out s d x y Hs Hy Hd. exists s. pose proof (scattering_real _ _ _ Hy) as Hx. pose proof (out_type_of _ _ _ _ Hs) as Eo.
  assert (Hc : String.eqb (s_out_type s) "array" = true -> s_average s = Ok Local \/ d = F32).
  { intros E. destruct d; [now right|left]. apply String.eqb_eq in E. specialize (Hd eq_refl). rewrite <- Eo in Hd. specialize (Hd E).
    rewrite scattering_paths in Hy. inv_bind Hy. unfold check_runtime_args in E0. rewrite E in E0. cbn [existsb String.eqb Ascii.eqb Bool.eqb orb] in E0.
    destruct (s_average s) as [[| |]|]; cbn in E0; congruence. }
  pose proof (scattering_ref complex_ops (tf_backend complex_ops) tf_rel (tf_refines complex_ops) s d x (mk_tf d x) (conj eq_refl Hx) Hc) as G.
  rewrite Hy in G. destruct G as (y' & E & G). exists y'. split; [exact Hs|]. split; [exact E|]. apply out_ref_map in G. destruct G as [G1 G2]. split; [exact G1|].
  destruct (s_average s) as [[| |]|]; exact G2.
Qed.
Print Assumptions C82_tensorflow_1d_partial.

(** JAX, 1-D: whenever NumPy returns, JAX returns the same; for a signal that is not empty the converse holds, and JAX raises what
    NumPy raises, but possibly TypeError instead of ValueError. *)
Definition same_outcome {A} (x : nd C) (numpy jax : res A) : Prop :=
  (forall y, numpy = Ok y -> jax = Ok y) /\
  (~ In 0 (nd_shape x) -> (forall y, jax = Ok y -> numpy = Ok y) /\ (forall e, numpy = Err e -> jax = Err e \/ (e = ValueError /\ jax = Err TypeError))).
Lemma upto_outcome {A} x (r r' : res A) : upto r r' -> same_outcome x r r'.
Proof.
  intros [-> | [-> ->]]; (split; [auto|]).
  - intros _. split; [auto|]. intros e ->. now left.
  - discriminate.
  - intros _. split; [discriminate|]. intros e [= <-]. now right.
Qed.
Theorem C82_jax_1d : forall support p out x,
  same_outcome x (s <- Scattering1D support p out ;; scattering np s x) (s <- ScatteringJax1D support p out ;; jax_call s x).
Proof.
  intros support p out x. apply upto_outcome. unfold ScatteringJax1D, jax_call. destruct (Scattering1D support p out) as [s|e]; [|apply upto_refl]. cbn [bind]. apply scattering_upto.
Qed.
Print Assumptions C82_jax_1d.

(** ** C82, the joint transform *)
Theorem C82_tensorflow_joint_partial : forall support p out s d x y,
  TimeFrequencyScattering support p out = Ok s -> jtfs_scattering np sgnR s x = Ok y ->
  (d = F64 -> out = "array"%string -> jp_format p = "time"%string -> s_average (t_base s) <> Ok Global) ->
  exists s' y', TimeFrequencyScatteringTensorFlow support p out = Ok s' /\ tf_callj s' (mk_tf d x) = Ok y' /\
    jout_map tf_val y' = y /\ jprecisions (match s_average (t_base s) with Ok Local => F32 | _ => d end) y'.
Proof.
  intros support p out s d x y Hs Hy Hd. exists s. pose proof (jtfs_real _ _ _ Hy) as Hx.
  assert (Eo : s_out_type (t_base s) = out /\ t_format s = jp_format p).
  { pose proof Hs as G. apply new_jtfs_inv in G. destruct G as (pb & Q_fr & q0 & q1' & F & _ & EB & _ & _ & _ & _ & _ & _ & Ef & _). split; [exact (out_type_of _ _ _ _ EB)|exact Ef]. }
  destruct Eo as [Eo Ef].
  assert (Hc : String.eqb (s_out_type (t_base s)) "array" = true -> String.eqb (t_format s) "joint" = false -> s_average (t_base s) = Ok Local \/ d = F32).
  { intros E Ej. destruct d; [now right|left]. apply String.eqb_eq in E. specialize (Hd eq_refl). rewrite <- Eo in Hd. specialize (Hd E). rewrite <- Ef in Hd.
    unfold jtfs_scattering in Hy. inv_bind Hy. clear Hy. match goal with H : jpaths _ _ _ _ = _ |- _ => rename H into G end. unfold jpaths in G. inv_bind G. clear G.
    match goal with H : jcheck_runtime_args _ = _ |- _ => rename H into G end. unfold jcheck_runtime_args in G. inv_bind G. inv_bind G.
    rewrite Ej in G. rewrite orb_false_r in G. destruct (String.eqb_spec (t_format s) "time") as [Et|Et]; [|discriminate]. specialize (Hd Et).
    match goal with H : check_runtime_args _ = _ |- _ => rename H into G1 end.
    unfold check_runtime_args in G1. rewrite E in G1. cbn [existsb String.eqb Ascii.eqb Bool.eqb orb] in G1.
    destruct (s_average (t_base s)) as [[| |]|]; cbn in G1; congruence. }
  pose proof (jtfs_ref complex_ops (tf_backend complex_ops) sgnR tf_rel (tf_refines complex_ops) s d x (mk_tf d x) (conj eq_refl Hx) Hc) as G.
  rewrite Hy in G. destruct G as (y' & E & G). exists y'. split; [exact Hs|]. split; [exact E|]. apply jout_ref_map in G. destruct G as [G1 G2]. split; [exact G1|].
  destruct (s_average (t_base s)) as [[| |]|]; exact G2.
Qed.
Print Assumptions C82_tensorflow_joint_partial.

Theorem C82_jax_joint : forall support p out x,
  same_outcome x (s <- TimeFrequencyScattering support p out ;; jtfs_scattering np sgnR s x) (s <- TimeFrequencyScatteringJax support p out ;; jax_callj s x).
Proof.
  intros support p out x. apply upto_outcome. unfold TimeFrequencyScatteringJax, jax_callj. destruct (TimeFrequencyScattering support p out) as [s|e]; [|apply upto_refl]. cbn [bind]. apply jtfs_upto.
Qed.
Print Assumptions C82_jax_joint.

(** ** Double precision with global averaging *)
Lemma global_object support J N q out : (forall n t, (0 <= support n t)%Z) -> (0 <= J)%Z -> (1 <= q)%Z -> (2 ^ J <= N)%Z ->
  exists s, Scattering1D support (mk_params J N (QInt q) TGlobal SNone 2) out = Ok s /\ s_average s = Ok Global /\ s_log2_stride s = Ok J.
Proof.
  intros Hsup HJ Hq HN. pose proof (pow2_pos J HJ) as P1. set (p := mk_params J N (QInt q) TGlobal SNone 2).
  destruct (build_total support p N SNone (Qpower 2 J)) as [b Hb]; [reflexivity|lia|apply Hsup|reflexivity|reflexivity|].
  assert (HbN : b_N b = N). { destruct (build_inv _ _ _ Hb) as (st & T & l & r & EN & _). cbn in EN. congruence. }
  destruct (build_plan support _ b Hsup Hb) as (_ & B1 & _); [lia|].
  destruct (new_total support p out b q 1 J) as [s Hs]; try assumption; try lia.
  - unfold p. cbn [p_Q mk_params]. unfold Q_of. cbn [qval_entries existsb map]. rewrite (proj2 (Qltb_false _ _)); [reflexivity|]. unfold Qle. cbn. lia.
  - unfold p. cbn [p_T p_J mk_params]. unfold log2_T_of, T_of. cbn [parse_T bind fst]. now rewrite log2_floor_pow2.
  - unfold p. cbn [p_J mk_params]. assert (2 ^ Z.max J (J - 2) = 2 ^ J)%Z by (f_equal; lia). lia.
  - exists s. split; [exact Hs|]. apply new_inv in Hs. destruct Hs as (b' & Qs & T & l2T & phi & psi1s & psi2s & Hb' & _ & _ & _ & _ & _ & ->).
    destruct (build_inv _ _ _ Hb') as (st & T0 & l0 & r0 & EN' & Eov & _ & _ & ->). cbn in Eov. injection Eov as <-. split; [reflexivity|].
    cbn [s_log2_stride b_stride b_N log2_stride_of p_T p_J p mk_params]. unfold log2_T_of, T_of. cbn [parse_T bind fst]. now rewrite log2_floor_pow2.
Qed.

(** Any object with global averaging, a first-order wavelet and the container 'array': in double precision TensorFlow raises
    although NumPy returns. *)
Lemma mixed_stack support p s x y : Scattering1D support p "array" = Ok s -> (1 <= p_max_order p <= 2)%Z -> s_average s = Ok Global -> s_psi1 s <> [] ->
  scattering np s x = Ok y -> tf_call s (mk_tf F64 x) = Err RuntimeError.
Proof.
  intros Hs Hmo Ha Hp Hy. pose proof (scattering_real _ _ _ Hy) as Hx. pose proof (out_type_of _ _ _ _ Hs) as Eo.
  assert (Em : s_max_order s = p_max_order p). { apply new_inv in Hs. destruct Hs as (b & Qs & T & l & phi & psi1s & psi2s & _ & _ & _ & _ & _ & _ & ->). reflexivity. }
  rewrite scattering_paths in Hy. inv_bind Hy. inv_bind Hy. inv_bind Hy. rename v1 into S1.
  assert (El : scattering np (with_out s "list") x = Ok (OutList (sort_paths S1))).
  { rewrite scattering_paths. unfold check_runtime_args. cbn [with_out s_out_type s_average]. rewrite Ha. cbn [existsb String.eqb Ascii.eqb Bool.eqb orb bind raise_if andb].
    rewrite E0. cbn [bind]. rewrite paths_with_out, E1. reflexivity. }
  pose proof (scattering_ref complex_ops (tf_backend complex_ops) tf_rel (tf_refines complex_ops) (with_out s "list") F64 x (mk_tf F64 x) (conj eq_refl Hx) ltac:(discriminate)) as G.
  rewrite El in G. destruct G as (y' & E' & G). cbn [with_out s_average] in G. rewrite Ha in G. inversion G as [|l1 l2 F|]; subst; clear G.
  apply scattering_list_inv in E'. destruct E' as (S2 & E2 & ->). rewrite paths_with_out in E2.
  pose proof (paths_sorted_keys np s x S1 ltac:(rewrite Em; exact Hmo) E1) as Hk. unfold expected_keys, keys0, keys1 in Hk.
  destruct (s_psi1 s) as [|f1 psi1] eqn:Ep; [congruence|]. unfold j1s in Hk. rewrite Ep in Hk. cbn [map length seq app] in Hk.
  unfold tf_call. rewrite scattering_paths, E. cbn [bind]. change (be_shape (tf_backend complex_ops) (mk_tf F64 x)) with (nd_shape x).
  change (be_shape np x) with (nd_shape x) in E0. rewrite E0. cbn [bind]. rewrite E2. cbn [bind]. unfold format_out. rewrite Eo. cbn [String.eqb Ascii.eqb Bool.eqb].
  destruct F as [|p1 q1 l1 l2 A1 F]; [discriminate|]. destruct F as [|p2 q2 l1 l2 A2 F]; [discriminate|]. cbn [map] in Hk. injection Hk as K1 K2 _.
  unfold anyp in A1, A2. rewrite K1 in A1. rewrite K2 in A2. destruct A1 as [[A1 _] _], A2 as [[A2 _] _].
  cbn [map tf_backend be_stack]. rewrite A1, A2. unfold tf_stack. cbn [forallb]. unfold tf_same at 2. cbn [tf_prec fdtype_eqb andb]. rewrite andb_false_r. reflexivity.
Qed.

(** For every J, every Q >= 2, every length N >= 2^J and every real batch with at least one signal: T='global' and
    out_type='array' make TensorFlow raise on a float64 input, where NumPy returns an array. *)
Theorem C82_double_refuted : forall support J N q batch x, (forall n t, (0 <= support n t)%Z) ->
  (0 <= J)%Z -> (2 <= q)%Z -> (2 ^ J <= N)%Z ->
  nd_dtype x = Real -> nd_wf x -> nd_shape x = batch ++ [Z.to_nat N] -> 0 < prod batch ->
  exists s s' y, let p := mk_params J N (QInt q) TGlobal SNone 2 in
    Scattering1D support p "array" = Ok s /\ scattering np s x = Ok (OutArray y) /\
    ScatteringTensorFlow1D support p "array" = Ok s' /\ tf_call s' (mk_tf F64 x) = Err RuntimeError.
Proof.
  intros support J N q batch x Hsup HJ Hq HN Hx Hw Hsh Hb. pose proof (pow2_pos J HJ) as P1.
  destruct (global_object support J N q "array" Hsup HJ ltac:(lia) HN) as (s & Hs & Ha & Hls).
  set (p := mk_params J N (QInt q) TGlobal SNone 2) in *.
  assert (EQ : Q_of (p_Q p) = Ok [QI q; QI 1]).
  { unfold p, Q_of. cbn [mk_params p_Q qval_entries existsb map]. rewrite (proj2 (Qltb_false _ _)); [reflexivity|]. unfold Qle. cbn. lia. }
  assert (ET : log2_T_of (p_T p) (p_J p) N = Ok J). { unfold p. cbn [p_T p_J mk_params]. unfold log2_T_of, T_of. cbn [parse_T bind fst]. now rewrite log2_floor_pow2. }
  assert (Hex : exists l, scattering np (with_out s "list") x = Ok (OutList l)).
  { eapply (C14_lookups support p "array" s N q 1 J Global J); try eassumption; try reflexivity; try lia; try discriminate; cbn [p mk_params p_J p_max_order]; lia. }
  destruct Hex as (l & El).
  destruct (C17_numpy_channels support p "array" s N batch x l) as (y & L & Ey & _); try eassumption; try reflexivity; try lia; try (cbn [p mk_params p_J p_max_order]; lia).
  { rewrite Ha. discriminate. }
  assert (Ey' : scattering np s x = Ok (OutArray y)). { rewrite <- Ey. f_equal. pose proof (out_type_of _ _ _ _ Hs) as Eo. destruct s; cbn in *. now subst. }
  exists s, s, y. cbn zeta. split; [exact Hs|]. split; [exact Ey'|]. split; [exact Hs|].
  apply (mixed_stack support p s x (OutArray y) Hs); [cbn; lia|exact Ha| |exact Ey'].
  intros E. destruct (new_banks _ _ _ _ Hs _ _ EQ) as (B & _). apply (f_equal (@length _)) in B. rewrite map_length, E in B. cbn [length] in B.
  pose proof (anden_length (p_J p) q HJ ltac:(lia)). cbn [p mk_params p_J] in *. lia.
Qed.
Print Assumptions C82_double_refuted.

(** Three constant signals of any length N >= 4. *)
Definition ones3 (N : Z) : nd C := mk_nd Real [3; Z.to_nat N] (repeat (RtoC 1) (3 * Z.to_nat N)).
Lemma ones3_wf N : nd_wf (ones3 N).
Proof. unfold nd_wf, ones3. cbn [nd_data nd_shape]. rewrite repeat_length. cbn. lia. Qed.

Example C82_1d_instance : forall N, (4 <= N)%Z -> exists s y, Scattering1D (fun _ _ => 1%Z) (mk_params 2 N (QInt 8) TNone SNone 2) "array" = Ok s /\
  s_average s = Ok Local /\ scattering np s (ones3 N) = Ok (OutArray y).
Proof.
  intros N HN. destruct (constructor_instance (fun _ _ => 1%Z) 2 N 8 "array") as [s Hs]; [intros; lia|lia|lia|lia|]. set (p := mk_params 2 N (QInt 8) TNone SNone 2) in *.
  assert (Ha : s_average s = Ok Local /\ s_log2_stride s = Ok 2%Z).
  { apply new_inv in Hs. destruct Hs as (b' & Qs & T & l2T & phi & psi1s & psi2s & Hb' & _ & _ & _ & _ & _ & ->).
    destruct (build_inv _ _ _ Hb') as (st & T0 & l0 & r0 & EN' & Eov & _ & _ & ->). cbn in Eov. injection Eov as <-. split; reflexivity. }
  destruct Ha as [Ha Hls].
  assert (Hex : exists l, scattering np (with_out s "list") (ones3 N) = Ok (OutList l)).
  { eapply (C14_lookups (fun _ _ => 1%Z) p "array" s N 8 1 2 Local 2) with (batch := [3]); try eassumption; try reflexivity; try lia; try discriminate; try apply ones3_wf; try (cbn [p mk_params p_J p_max_order]; lia). }
  destruct Hex as (l & El).
  destruct (C17_numpy_channels (fun _ _ => 1%Z) p "array" s N [3] (ones3 N) l) as (y & L & Ey & _); try eassumption; try reflexivity; try (intros; lia); try apply ones3_wf; try (cbn [p mk_params p_J p_max_order prod fold_right]; lia).
  { rewrite Ha. discriminate. }
  exists s, y. split; [exact Hs|]. split; [exact Ha|]. rewrite <- Ey. f_equal. pose proof (out_type_of _ _ _ _ Hs) as Eo. destruct s; cbn in *. now subst.
Qed.
Example C82_joint_instance : forall N out format, (4 <= N)%Z -> In out ["array"; "list"; "dict"]%string -> In format ["joint"; "time"]%string ->
  exists s y, TimeFrequencyScattering (fun _ _ => 1%Z) (default_jparams 2 N 8 1 TNone format) out = Ok s /\
    s_average (t_base s) = Ok Local /\ jtfs_scattering np sgnR s (ones3 N) = Ok y.
Proof. intros N out format HN Ho Hf. destruct (C81_instance N out format HN Ho Hf) as (s & y & A & B & _ & _ & D). now exists s, y. Qed.
Example C82_double_instance : forall N, (4 <= N)%Z ->
  exists s, ScatteringTensorFlow1D (fun _ _ => 1%Z) (mk_params 2 N (QInt 8) TGlobal SNone 2) "array" = Ok s /\ tf_call s (mk_tf F64 (ones3 N)) = Err RuntimeError.
Proof.
  intros N HN. destruct (C82_double_refuted (fun _ _ => 1%Z) 2 N 8 [3] (ones3 N)) as (_ & s & _ & _ & _ & A & B); try (intros; lia); try reflexivity; [apply ones3_wf|cbn; lia|].
  now exists s.
Qed.
