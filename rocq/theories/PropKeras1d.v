(** C48: the 1-D Keras layer. *)
From Coq Require Import String Reals ZArith QArith List Bool Arith Lia Lra.
From Coquelicot Require Import Complex.
From Verif Require Import Base BaseProofs NdArray Backend Core1d Core1dProofs Utils1d Utils1dProofs Frontend1d Frontend1dProofs Spec1d Factory1d FactoryProofs ComplexOps NdProofs FilterBank1d FilterBank1dProofs Construct1d
  PropFilters1d PropShapes1d JtfsRun PropMeta1d Torch1d Tf1d TfFront PropTf Keras1d.
Import ListNotations.
Local Open Scope Z_scope.
Local Open Scope res_scope.

(** The arguments of Scattering1D(J, N, Q, T, max_order=mo, oversampling=ov). *)
Definition args (J N : Z) (Q : qval) (T : tval) (mo ov : Z) : params :=
  {| p_J := J; p_shape := ShInt N; p_Q := Q; p_T := T; p_stride := SNone; p_max_order := mo; p_oversampling := OInt ov |}.

Lemma last_snoc (pre : list nat) n d : last (pre ++ [n]) d = n.
Proof. induction pre as [|a pre IH]; [reflexivity|]. cbn [app last]. destruct (pre ++ [n]) eqn:E; [destruct pre; discriminate|exact IH]. Qed.
(** Only the length of the last axis matters, and it is passed as a 1-tuple. *)
Lemma keras_build_args support J Q T mo ov pre (n : nat) :
  keras_build1 support (ScatteringKeras1D J Q T mo ov) (pre ++ [n]) = Scattering1D support (args J (Z.of_nat n) Q T 2 0) "array".
Proof.
  unfold keras_build1, ScatteringTensorFlow1D. rewrite last_snoc. destruct (pre ++ [n]) eqn:E; [destruct pre; discriminate|]. reflexivity.
Qed.

(** ** The call *)
(** With the default max_order and oversampling: whenever the NumPy object returns, the layer, built on the shape of the input,
    returns the same array in single precision, whatever the precision of the input. *)
Theorem C48_call_partial : forall support J Q T s N pre d x y,
  Scattering1D support (args J N Q T 2 0) "array" = Ok s -> 0 <= N ->
  nd_shape x = pre ++ [Z.to_nat N] -> scattering np s x = Ok (OutArray y) ->
  exists s', keras_build1 support (ScatteringKeras1D J Q T 2 0) (nd_shape x) = Ok s' /\
    keras_call1 s' (mk_tf d x) = Ok (OutArray (mk_tf F32 y)).
Proof.
  intros support J Q T s N pre d x y Hs HN Hsh Hy. rewrite Hsh, keras_build_args, Z2Nat.id by exact HN. exists s. split; [exact Hs|].
  destruct (C82_tensorflow_1d_partial _ _ _ s F32 x (OutArray y) Hs Hy) as (s' & y' & Es & E & G & Gp); [discriminate|].
  unfold ScatteringTensorFlow1D in Es. rewrite Hs in Es. injection Es as <-. unfold keras_call1. cbn [tf_val]. rewrite E.
  destruct y' as [t| |]; try discriminate G. cbn in G, Gp. injection G as <-. destruct t. cbn in Gp. now subst.
Qed.
Print Assumptions C48_call_partial.

(** ** Objects and their runs *)
Lemma object support J N q T mo ov st T' a : (forall n t, 0 <= support n t) -> 0 <= J -> 1 <= q -> 1 <= N -> 1 <= mo <= 2 ->
  parse_T T J N = Ok (T', a) -> oversampling_check (OInt ov) SNone T J N = Ok st -> 2 ^ Z.max (log2_floor T' J) (J - 2) <= N ->
  exists s, Scattering1D support (args J N (QInt q) T mo ov) "array" = Ok s /\ s_average s = Ok a /\ s_log2_stride s = log2_stride_of st T J N /\ s_max_order s = mo.
Proof.
  intros Hsup HJ Hq HN Hmo HT Hov Hfit. set (p := args J N (QInt q) T mo ov).
  assert (ET : T_of (p_T p) (p_J p) N = Ok T') by (cbn [p args p_T p_J]; unfold T_of; now rewrite HT).
  destruct (build_total support p N st T') as [b Hb]; [reflexivity|lia|apply Hsup|exact Hov|exact ET|].
  destruct (build_inv _ _ _ Hb) as (st' & T0 & l & r & EN & Eov & _ & _ & Eb). cbn in EN. injection EN as EN.
  assert (HbN : b_N b = N) by congruence. destruct (build_plan support _ b Hsup Hb) as (_ & B1 & _); [lia|].
  destruct (new_total support p "array" b q 1 (log2_floor T' J)) as [s Hs]; try assumption; try lia.
  - cbn [p args p_Q]. unfold Q_of. cbn [qval_entries existsb map]. rewrite (proj2 (Qltb_false _ _)); [reflexivity|]. unfold Qle. cbn. lia.
  - rewrite HbN. unfold log2_T_of. rewrite ET. reflexivity.
  - cbn [p args p_J]. lia.
  - exists s. split; [exact Hs|]. apply new_inv in Hs. destruct Hs as (b' & Qs & T1 & l2T & phi & psi1s & psi2s & Hb' & _ & _ & _ & _ & _ & ->).
    rewrite Hb in Hb'. injection Hb' as <-. cbn [s_average s_log2_stride s_max_order p args p_T p_J p_max_order]. rewrite HbN. unfold average_of. rewrite HT. split; [reflexivity|].
    rewrite <- EN in Eov. cbn [p args p_oversampling p_stride p_T p_J] in Eov. rewrite Hov in Eov. injection Eov as Est. rewrite Eb. cbn [b_stride]. now subst st'.
Qed.

(** What compute_output_shape announces: the number of multiples of 2^J among the N positions of the signal in the padded one. *)
Lemma announced support J N q T s a l2T nc b bs : (forall n t, 0 <= support n t) -> 0 <= J -> 1 <= q -> 1 <= N ->
  Scattering1D support (args J N (QInt q) T 2 0) "array" = Ok s -> s_average s = Ok a -> s_log2_stride s = Ok l2T -> log2_T_of T J N = Ok l2T ->
  output_size s = Ok nc -> forall mo ov,
  keras_output_shape1 (ScatteringKeras1D J (QInt q) T mo ov) s (b :: bs) = Ok [b; Some (Z.of_nat nc); Some (Z.of_nat (n_multiples J (s_pad_left s) N))].
Proof.
  intros Hsup HJ Hq HN Hs Ea Els ET Hnc mo ov. unfold keras_output_shape1. rewrite Hnc. cbn [bind ScatteringKeras1D k_J k_oversampling].
  assert (EQ : Q_of (QInt q) = Ok [QI q; QI 1]).
  { unfold Q_of. cbn [qval_entries existsb map]. rewrite (proj2 (Qltb_false _ _)); [reflexivity|]. unfold Qle. cbn. lia. }
  destruct (new_frame support (args J N (QInt q) T 2 0) "array" s N q 1 l2T a l2T Hsup Hs eq_refl HN HJ EQ Els Ea ET)
    as (Np & T' & HNp & Hl2T & _ & _ & _ & _ & l & r & ENp & El & Er & Hl & Hr & Est & Een).
  replace (Z.max (J - 0) 0) with J by lia. cbn [args p_J] in Est, Een. rewrite Est, Een, !dict_get_border by lia. cbn [bind].
  change (py_index (b :: bs) 0) with (Ok b). cbn [bind]. do 5 f_equal.
  rewrite !iter_half_ceil, Z2Nat.id by exact HJ. unfold n_multiples. rewrite count_multiples by (try apply pow2_pos; lia). rewrite El. unfold cdiv. rewrite Nat2Z.inj_add, Z2Nat.id by lia. reflexivity.
Qed.

(** The run with local averaging of an object with default stride. *)
Lemma local_run support J N q T mo ov s ls l2T B x : (forall n t, 0 <= support n t) -> 0 <= J -> 1 <= q -> 1 <= N -> 1 <= mo <= 2 ->
  Scattering1D support (args J N (QInt q) T mo ov) "array" = Ok s -> s_average s = Ok Local -> s_log2_stride s = Ok ls -> log2_T_of T J N = Ok l2T -> ls <= l2T ->
  nd_dtype x = Real -> nd_wf x -> nd_shape x = B ++ [Z.to_nat N] ->
  exists y, scattering np s x = Ok (OutArray y) /\
    nd_shape y = B ++ [length (expected_keys (Z.to_nat mo) (map f_j (s_psi1 s)) (map f_j (s_psi2 s))); n_multiples ls (s_pad_left s) N].
Proof.
  intros Hsup HJ Hq HN Hmo Hs Ea Els ET Hle Hd Hw Hsh.
  assert (EQ : Q_of (QInt q) = Ok [QI q; QI 1]).
  { unfold Q_of. cbn [qval_entries existsb map]. rewrite (proj2 (Qltb_false _ _)); [reflexivity|]. unfold Qle. cbn. lia. }
  destruct (C15_total_partial support (args J N (QInt q) T mo ov) "array" s N q 1 ls l2T Hsup Hs eq_refl HN HJ Hmo EQ ltac:(lia) Ea Els ET Hle B x Hd Hw Hsh)
    as (_ & _ & y & Ey & _ & Sy).
  exists y. split; [|exact Sy]. rewrite <- Ey. f_equal. pose proof (out_type_of _ _ _ _ Hs) as Eo. destruct s; cbn in *. now subst.
Qed.

Lemma size_of support p out s N q1 q2 l2T ls : Scattering1D support p out = Ok s -> N_input_of (p_shape p) = Ok N -> 0 <= p_J p -> 1 <= p_max_order p <= 2 ->
  Q_of (p_Q p) = Ok [QI q1; QI q2] -> 1 <= q2 <= q1 -> log2_T_of (p_T p) (p_J p) N = Ok l2T -> s_log2_stride s = Ok ls -> p_J p - 2 <= l2T ->
  output_size s = Ok (length (expected_keys (Z.to_nat (p_max_order p)) (map f_j (s_psi1 s)) (map f_j (s_psi2 s)))).
Proof.
  intros Hs EN HJ Hmo EQ Hq ET Els Hle. destruct (C18_meta_total_partial support p out s N q1 q2 ls l2T) as (m & k & Hm & Hk); try assumption.
  unfold output_size. rewrite Hm. cbn [bind]. do 2 f_equal. apply meta_keys in Hm.
  - rewrite Hm. do 2 f_equal. apply new_inv in Hs. destruct Hs as (b & Qs & T & l & phi & psi1s & psi2s & _ & _ & _ & _ & _ & _ & ->). reflexivity.
  - apply new_inv in Hs. destruct Hs as (b & Qs & T & l & phi & psi1s & psi2s & _ & _ & _ & _ & _ & _ & ->). exact Hmo.
Qed.

(** Fewer multiples of a power of two than of a smaller one. *)
Lemma fewer p p' a a' n : 0 < p -> 2 * p <= p' -> 2 * p' <= n -> cdiv (a' + n) p' - cdiv a' p' < cdiv (a + n) p - cdiv a p.
Proof.
  intros Hp Hpp Hn. pose proof (cdiv_len_bounds p' a' n ltac:(lia) ltac:(lia)) as [_ U]. pose proof (cdiv_len_bounds p a n Hp ltac:(lia)) as [L _].
  assert (cdiv n p' < n / p); [|lia]. clear U L. unfold cdiv.
  assert (E : n / (2 * p) = n / p / 2) by (rewrite Z.mul_comm, Z.div_div by lia; reflexivity).
  assert (n / p' <= n / (2 * p)) by (apply Z.div_le_compat_l; lia).
  assert (4 <= n / p) by (apply Z.div_le_lower_bound; lia).
  assert (- (- n / p') <= n / p' + 1).
  { pose proof (Z.div_mod n p' ltac:(lia)). pose proof (Z.mod_pos_bound n p' ltac:(lia)). assert (- (n / p' + 1) <= - n / p'); [apply Z.div_le_lower_bound; nia|lia]. }
  assert (n / p / 2 + 1 < n / p); [|lia]. pose proof (Z.div_mod (n / p) 2 ltac:(lia)). pose proof (Z.mod_pos_bound (n / p) 2 ltac:(lia)). lia.
Qed.

(** The wavelets of a bank with Q = 1. *)
Lemma q1_filter J (psis : list (Core1d.filter (nd C) R)) k : 0 <= J -> map params_of psis = anden_list J 1 sigma0 r_psi ->
  Forall (fun f => f_j f = scale (f_xi f) (f_sigma f)) psis -> (k <= Z.to_nat J)%nat -> exists f, In f psis /\ f_j f = Z.max (Z.of_nat k - 2) 0.
Proof.
  intros HJ Hp Hj Hk. rewrite Forall_forall in Hj.
  assert (I1 : In (35 / 100 / 2 ^ k, rho 1 * (35 / 100 / 2 ^ k))%R (map params_of psis)).
  { rewrite Hp. rewrite (anden_unique J 1 sigma0 r_psi _ _ (anden_list_ok J 1 ltac:(lia) ltac:(lia)) (anden_Q1 J ltac:(lia))).
    apply in_map_iff. exists k. split; [reflexivity|]. apply in_seq. lia. }
  apply in_map_iff in I1 as (f1 & E1 & I1). exists f1. split; [exact I1|]. injection E1 as E1a E1b.
  now rewrite (Hj f1 I1), E1a, E1b, scale_Q1.
Qed.

(** ** compute_output_shape *)
(** Averaging over T with floor(log2 T) = J (the default among them), a batch of [B] signals: the tensor returned has the announced shape,
    whatever max_order and oversampling the layer was given. *)
Theorem C48_output_shape_partial : forall support J N q T T' B mo ov d x,
  (forall n t, 0 <= support n t) -> 0 <= J -> 1 <= q -> 2 ^ J <= N ->
  parse_T T J N = Ok (T', Local) -> log2_floor T' J = J ->
  nd_dtype x = Real -> nd_wf x -> nd_shape x = [B; Z.to_nat N] ->
  let k := ScatteringKeras1D J (QInt q) T mo ov in
  exists s y nc L, keras_build1 support k (nd_shape x) = Ok s /\
    keras_call1 s (mk_tf d x) = Ok (OutArray (mk_tf F32 y)) /\ nd_shape y = [B; nc; L] /\
    forall b, keras_output_shape1 k s [b; Some N] = Ok [b; Some (Z.of_nat nc); Some (Z.of_nat L)].
Proof.
  intros support J N q T T' B mo ov d x Hsup HJ Hq HN HT HlT Hd Hw Hsh k. pose proof (pow2_pos J HJ) as P.
  destruct (object support J N q T 2 0 SNone T' Local) as (s & Hs & Ea & Els & _); try assumption; try lia; [reflexivity|rewrite HlT; assert (2 ^ Z.max J (J - 2) = 2 ^ J) by (f_equal; lia); lia|].
  assert (ET : log2_T_of T J N = Ok J) by (unfold log2_T_of, T_of; rewrite HT; cbn [bind fst]; now rewrite HlT).
  cbn [log2_stride_of] in Els. rewrite ET in Els.
  destruct (local_run support J N q T 2 0 s J J [B] x) as (y & Ey & Sy); try assumption; try lia.
  assert (Enc : output_size s = Ok (length (expected_keys (Z.to_nat 2) (map f_j (s_psi1 s)) (map f_j (s_psi2 s))))).
  { apply (size_of support (args J N (QInt q) T 2 0) "array" s N q 1 J J); try assumption; try reflexivity; try (cbn [args p_J p_max_order]; lia).
    cbn [args p_Q]. unfold Q_of. cbn [qval_entries existsb map]. rewrite (proj2 (Qltb_false _ _)); [reflexivity|]. unfold Qle. cbn. lia. }
  destruct (C48_call_partial support J (QInt q) T s N [B] d x y Hs ltac:(lia) Hsh Ey) as (s' & Eb & Ec).
  exists s', y, (length (expected_keys (Z.to_nat 2) (map f_j (s_psi1 s)) (map f_j (s_psi2 s)))), (n_multiples J (s_pad_left s) N).
  assert (s' = s) as ->. { change (ScatteringKeras1D J (QInt q) T 2 0) with k in Eb. rewrite Hsh in Eb. change [B; Z.to_nat N] with ([B] ++ [Z.to_nat N]) in Eb. unfold k in Eb. rewrite keras_build_args, Z2Nat.id in Eb by lia. congruence. }
  split; [exact Eb|]. split; [exact Ec|]. split; [exact Sy|]. intros b. eapply announced; try eassumption; lia.
Qed.
Print Assumptions C48_output_shape_partial.

(** With a shorter averaging scale it announces too few samples: it counts multiples of 2^J, the tensor has one sample per multiple of 2^(floor(log2 T)). *)
Theorem C48_output_shape_refuted : forall support J N q T T' B mo ov d x,
  (forall n t, 0 <= support n t) -> 1 <= q -> 2 ^ (J + 1) <= N ->
  parse_T T J N = Ok (T', Local) -> 0 <= log2_floor T' J -> J - 2 <= log2_floor T' J < J ->
  nd_dtype x = Real -> nd_wf x -> nd_shape x = [B; Z.to_nat N] ->
  let k := ScatteringKeras1D J (QInt q) T mo ov in
  exists s y nc L L', keras_build1 support k (nd_shape x) = Ok s /\
    keras_call1 s (mk_tf d x) = Ok (OutArray (mk_tf F32 y)) /\ nd_shape y = [B; nc; L] /\
    (forall b, keras_output_shape1 k s [b; Some N] = Ok [b; Some (Z.of_nat nc); Some (Z.of_nat L')]) /\ (L' < L)%nat.
Proof.
  intros support J N q T T' B mo ov d x Hsup Hq HN HT Hl0 Hl Hd Hw Hsh k. set (l2T := log2_floor T' J) in *.
  pose proof (pow2_pos l2T Hl0) as P. pose proof (pow2_pos J ltac:(lia)) as PJ. rewrite Z.pow_add_r in HN by lia. change (2 ^ 1) with 2 in HN.
  assert (PP : 2 * 2 ^ l2T <= 2 ^ J). { replace (2 * 2 ^ l2T) with (2 ^ (l2T + 1)) by (rewrite Z.pow_add_r by lia; lia). apply Z.pow_le_mono_r; lia. }
  destruct (object support J N q T 2 0 SNone T' Local) as (s & Hs & Ea & Els & _); try assumption; try lia; [reflexivity| |].
  { fold l2T. replace (Z.max l2T (J - 2)) with l2T by lia. lia. }
  assert (ET : log2_T_of T J N = Ok l2T) by (unfold log2_T_of, T_of; rewrite HT; reflexivity).
  cbn [log2_stride_of] in Els. rewrite ET in Els.
  destruct (local_run support J N q T 2 0 s l2T l2T [B] x) as (y & Ey & Sy); try assumption; try lia.
  assert (Enc : output_size s = Ok (length (expected_keys (Z.to_nat 2) (map f_j (s_psi1 s)) (map f_j (s_psi2 s))))).
  { apply (size_of support (args J N (QInt q) T 2 0) "array" s N q 1 l2T l2T); try assumption; try reflexivity; try (cbn [args p_J p_max_order]; lia).
    cbn [args p_Q]. unfold Q_of. cbn [qval_entries existsb map]. rewrite (proj2 (Qltb_false _ _)); [reflexivity|]. unfold Qle. cbn. lia. }
  destruct (C48_call_partial support J (QInt q) T s N [B] d x y Hs ltac:(lia) Hsh Ey) as (s' & Eb & Ec).
  exists s', y, (length (expected_keys (Z.to_nat 2) (map f_j (s_psi1 s)) (map f_j (s_psi2 s)))), (n_multiples l2T (s_pad_left s) N), (n_multiples J (s_pad_left s) N).
  assert (s' = s) as ->. { change (ScatteringKeras1D J (QInt q) T 2 0) with k in Eb. rewrite Hsh in Eb. change [B; Z.to_nat N] with ([B] ++ [Z.to_nat N]) in Eb. unfold k in Eb. rewrite keras_build_args, Z2Nat.id in Eb by lia. congruence. }
  split; [exact Eb|]. split; [exact Ec|]. split; [exact Sy|]. split; [intros b; eapply announced; try eassumption; lia|].
  apply Nat2Z.inj_lt. unfold n_multiples. rewrite !count_multiples by lia. apply fewer; lia.
Qed.
Print Assumptions C48_output_shape_refuted.

(** Every further batch axis makes the announced shape one axis too short. *)
Theorem C48_rank_refuted : forall support J N q B1 B2 mo ov d x,
  (forall n t, 0 <= support n t) -> 0 <= J -> 1 <= q -> 2 ^ J <= N ->
  nd_dtype x = Real -> nd_wf x -> nd_shape x = [B1; B2; Z.to_nat N] ->
  let k := ScatteringKeras1D J (QInt q) TNone mo ov in
  exists s y nc L, keras_build1 support k (nd_shape x) = Ok s /\
    keras_call1 s (mk_tf d x) = Ok (OutArray (mk_tf F32 y)) /\ nd_shape y = [B1; B2; nc; L] /\
    forall b1 b2, keras_output_shape1 k s [b1; b2; Some N] = Ok [b1; Some (Z.of_nat nc); Some (Z.of_nat L)].
Proof.
  intros support J N q B1 B2 mo ov d x Hsup HJ Hq HN Hd Hw Hsh k. pose proof (pow2_pos J HJ) as P.
  destruct (object support J N q TNone 2 0 SNone (Qpower 2 J) Local) as (s & Hs & Ea & Els & _); try assumption; try lia; try reflexivity.
  { rewrite log2_floor_pow2 by exact HJ. replace (Z.max J (J - 2)) with J by lia. exact HN. }
  assert (ET : log2_T_of TNone J N = Ok J) by (unfold log2_T_of, T_of; cbn [parse_T bind fst]; now rewrite log2_floor_pow2).
  cbn [log2_stride_of] in Els. rewrite ET in Els.
  destruct (local_run support J N q TNone 2 0 s J J [B1; B2] x) as (y & Ey & Sy); try assumption; try lia.
  assert (Enc : output_size s = Ok (length (expected_keys (Z.to_nat 2) (map f_j (s_psi1 s)) (map f_j (s_psi2 s))))).
  { apply (size_of support (args J N (QInt q) TNone 2 0) "array" s N q 1 J J); try assumption; try reflexivity; try (cbn [args p_J p_max_order]; lia).
    cbn [args p_Q]. unfold Q_of. cbn [qval_entries existsb map]. rewrite (proj2 (Qltb_false _ _)); [reflexivity|]. unfold Qle. cbn. lia. }
  destruct (C48_call_partial support J (QInt q) TNone s N [B1; B2] d x y Hs ltac:(lia) Hsh Ey) as (s' & Eb & Ec).
  exists s', y, (length (expected_keys (Z.to_nat 2) (map f_j (s_psi1 s)) (map f_j (s_psi2 s)))), (n_multiples J (s_pad_left s) N).
  assert (s' = s) as ->. { change (ScatteringKeras1D J (QInt q) TNone 2 0) with k in Eb. rewrite Hsh in Eb. change [B1; B2; Z.to_nat N] with ([B1; B2] ++ [Z.to_nat N]) in Eb. unfold k in Eb. rewrite keras_build_args, Z2Nat.id in Eb by lia. congruence. }
  split; [exact Eb|]. split; [exact Ec|]. split; [exact Sy|]. intros b1 b2. eapply announced; try eassumption; lia.
Qed.
Print Assumptions C48_rank_refuted.

(** ** The ignored arguments *)
(** oversampling=1: the NumPy object returns more samples than the layer given the same argument. *)
Theorem C48_oversampling_refuted : forall support J N q B d x,
  (forall n t, 0 <= support n t) -> 1 <= J -> 1 <= q -> 2 ^ (J + 1) <= N ->
  nd_dtype x = Real -> nd_wf x -> nd_shape x = [B; Z.to_nat N] ->
  exists s y s' y' nc L L', Scattering1D support (args J N (QInt q) TNone 2 1) "array" = Ok s /\ scattering np s x = Ok (OutArray y) /\
    keras_build1 support (ScatteringKeras1D J (QInt q) TNone 2 1) (nd_shape x) = Ok s' /\ keras_call1 s' (mk_tf d x) = Ok (OutArray (mk_tf F32 y')) /\
    nd_shape y = [B; nc; L] /\ nd_shape y' = [B; nc; L'] /\ (L' < L)%nat.
Proof.
  intros support J N q B d x Hsup HJ Hq HN Hd Hw Hsh. pose proof (pow2_pos (J - 1) ltac:(lia)) as P.
  assert (P2 : 2 ^ J = 2 * 2 ^ (J - 1)) by (replace J with (J - 1 + 1) at 1 by lia; rewrite Z.pow_add_r by lia; lia).
  rewrite Z.pow_add_r in HN by lia. change (2 ^ 1) with 2 in HN.
  assert (ET : log2_T_of TNone J N = Ok J) by (unfold log2_T_of, T_of; cbn [parse_T bind fst]; rewrite log2_floor_pow2 by lia; reflexivity).
  assert (Hov : oversampling_check (OInt 1) SNone TNone J N = Ok (SInt (2 ^ (J - 1)))).
  { unfold oversampling_check. cbn [Z.ltb Z.eqb]. rewrite ET. cbn [bind negb]. destruct (Z.ltb_spec (J - 1) 0); [lia|reflexivity]. }
  assert (Hfit : 2 ^ Z.max (log2_floor (Qpower 2 J) J) (J - 2) <= N) by (rewrite log2_floor_pow2 by lia; replace (Z.max J (J - 2)) with J by lia; lia).
  destruct (object support J N q TNone 2 1 (SInt (2 ^ (J - 1))) (Qpower 2 J) Local) as (s & Hs & Ea & Els & _); try assumption; try lia; try reflexivity.
  assert (Els' : s_log2_stride s = Ok (J - 1)).
  { rewrite Els. unfold log2_stride_of. destruct (Z.leb_spec (2 ^ (J - 1)) 0); [lia|]. rewrite Z.log2_pow2, Z.eqb_refl by lia. reflexivity. }
  destruct (object support J N q TNone 2 0 SNone (Qpower 2 J) Local) as (s' & Hs' & Ea' & Els0 & _); try assumption; try lia; try reflexivity.
  cbn [log2_stride_of] in Els0. rewrite ET in Els0.
  destruct (local_run support J N q TNone 2 1 s (J - 1) J [B] x) as (y & Ey & Sy); try assumption; try lia.
  destruct (local_run support J N q TNone 2 0 s' J J [B] x) as (y' & Ey' & Sy'); try assumption; try lia.
  destruct (C48_call_partial support J (QInt q) TNone s' N [B] d x y' Hs' ltac:(lia) Hsh Ey') as (s2 & Eb & Ec).
  assert (EQ : Q_of (QInt q) = Ok [QI q; QI 1]).
  { unfold Q_of. cbn [qval_entries existsb map]. rewrite (proj2 (Qltb_false _ _)); [reflexivity|]. unfold Qle. cbn. lia. }
  destruct (new_banks _ _ _ _ Hs _ _ EQ) as (A1 & A2 & J1 & J2). destruct (new_banks _ _ _ _ Hs' _ _ EQ) as (A1' & A2' & J1' & J2').
  assert (Ej : forall l l' : list (Core1d.filter (nd C) R), map params_of l = map params_of l' -> Forall (fun f => f_j f = scale (f_xi f) (f_sigma f)) l ->
    Forall (fun f => f_j f = scale (f_xi f) (f_sigma f)) l' -> map f_j l = map f_j l').
  { induction l as [|f l IH]; intros [|f' l'] E F F'; try discriminate; [reflexivity|]. cbn [map] in *. inversion F; inversion F'; subst. injection E as E1 E2 E3. f_equal; [congruence|]. now apply IH. }
  assert (E1 : map f_j (s_psi1 s) = map f_j (s_psi1 s')) by (apply Ej; [now rewrite A1, A1'|exact J1|exact J1']).
  assert (E2 : map f_j (s_psi2 s) = map f_j (s_psi2 s')) by (apply Ej; [now rewrite A2, A2'|exact J2|exact J2']).
  rewrite E1, E2 in Sy.
  exists s, y, s2, y', (length (expected_keys (Z.to_nat 2) (map f_j (s_psi1 s')) (map f_j (s_psi2 s')))), (n_multiples (J - 1) (s_pad_left s) N), (n_multiples J (s_pad_left s') N).
  repeat (split; [first [exact Hs|exact Ey|exact Eb|exact Ec|exact Sy|exact Sy']|]).
  apply Nat2Z.inj_lt. unfold n_multiples. rewrite !count_multiples by lia. apply fewer; lia.
Qed.
Print Assumptions C48_oversampling_refuted.

(** max_order=1: the NumPy object returns fewer channels than the layer given the same argument. *)
Theorem C48_max_order_refuted : forall support J N B d x,
  (forall n t, 0 <= support n t) -> 3 <= J -> 2 ^ J <= N ->
  nd_dtype x = Real -> nd_wf x -> nd_shape x = [B; Z.to_nat N] ->
  exists s y s' y' nc nc' L, Scattering1D support (args J N (QInt 1) TNone 1 0) "array" = Ok s /\ scattering np s x = Ok (OutArray y) /\
    keras_build1 support (ScatteringKeras1D J (QInt 1) TNone 1 0) (nd_shape x) = Ok s' /\ keras_call1 s' (mk_tf d x) = Ok (OutArray (mk_tf F32 y')) /\
    nd_shape y = [B; nc; L] /\ nd_shape y' = [B; nc'; L] /\ (nc < nc')%nat.
Proof.
  intros support J N B d x Hsup HJ HN Hd Hw Hsh. pose proof (pow2_pos J ltac:(lia)) as P.
  assert (ET : log2_T_of TNone J N = Ok J) by (unfold log2_T_of, T_of; cbn [parse_T bind fst]; rewrite log2_floor_pow2 by lia; reflexivity).
  assert (Hfit : 2 ^ Z.max (log2_floor (Qpower 2 J) J) (J - 2) <= N) by (rewrite log2_floor_pow2 by lia; replace (Z.max J (J - 2)) with J by lia; lia).
  destruct (object support J N 1 TNone 1 0 SNone (Qpower 2 J) Local) as (s & Hs & Ea & Els & Em); try assumption; try lia; try reflexivity.
  destruct (object support J N 1 TNone 2 0 SNone (Qpower 2 J) Local) as (s' & Hs' & Ea' & Els' & Em'); try assumption; try lia; try reflexivity.
  cbn [log2_stride_of] in Els, Els'. rewrite ET in Els, Els'.
  destruct (local_run support J N 1 TNone 1 0 s J J [B] x) as (y & Ey & Sy); try assumption; try lia.
  destruct (local_run support J N 1 TNone 2 0 s' J J [B] x) as (y' & Ey' & Sy'); try assumption; try lia.
  destruct (C48_call_partial support J (QInt 1) TNone s' N [B] d x y' Hs' ltac:(lia) Hsh Ey') as (s2 & Eb & Ec).
  assert (Hsame : s_psi1 s = s_psi1 s' /\ s_psi2 s = s_psi2 s' /\ s_pad_left s = s_pad_left s').
  { apply new_inv in Hs, Hs'. destruct Hs as (b & Qs & T & l2T & phi & psi1s & psi2s & Hb & EQ1 & ET1 & EL1 & EF1 & _ & ->).
    destruct Hs' as (b' & Qs' & T' & l2T' & phi' & psi1s' & psi2s' & Hb' & EQ2 & ET2 & EL2 & EF2 & _ & ->).
    assert (b = b') as <- by (change (build support (args J N (QInt 1) TNone 2 0)) with (build support (args J N (QInt 1) TNone 1 0)) in Hb'; congruence).
    cbn [args p_Q p_T p_J] in *. rewrite EQ1 in EQ2. injection EQ2 as <-. rewrite ET1 in ET2. injection ET2 as <-. rewrite EL1 in EL2. injection EL2 as <-.
    rewrite EF1 in EF2. injection EF2 as <- <- <-. cbn. auto. }
  destruct Hsame as (E1 & E2 & E3). rewrite E1, E2, E3 in Sy.
  exists s, y, s2, y'. do 3 eexists. split; [exact Hs|]. split; [exact Ey|]. split; [exact Eb|]. split; [exact Ec|]. split; [exact Sy|]. split; [exact Sy'|].
  unfold expected_keys. change (2 <=? Z.to_nat 1)%nat with false. change (2 <=? Z.to_nat 2)%nat with true. rewrite !app_length. cbn [length].
  destruct (keys2 (map f_j (s_psi1 s')) (map f_j (s_psi2 s'))) as [|k0 ks] eqn:Ek; [|cbn [length]; lia]. exfalso.
  destruct (new_banks _ _ _ _ Hs' 1 1 eq_refl) as (A1 & A2 & J1 & J2).
  destruct (q1_filter J (s_psi1 s') 2 ltac:(lia) A1 J1 ltac:(lia)) as (f1 & I1 & Hj1).
  destruct (q1_filter J (s_psi2 s') 3 ltac:(lia) A2 J2 ltac:(lia)) as (f2 & I2 & Hj2).
  apply In_nth_error in I1 as [n1 N1]. apply In_nth_error in I2 as [n2 N2].
  assert (G : In [n1; n2] (expected_keys 2 (map f_j (s_psi1 s')) (map f_j (s_psi2 s')))).
  { apply In_expected_2. split; [lia|]. exists (f_j f1), (f_j f2). rewrite !nth_error_map, N1, N2. repeat split; lia. }
  unfold expected_keys, keys0, keys1 in G. cbn [Nat.leb] in G. rewrite Ek, app_nil_r in G. apply in_app_iff in G as [[G|[]]|G]; [discriminate|].
  apply in_map_iff in G as (? & G & _). discriminate.
Qed.
Print Assumptions C48_max_order_refuted.

(** J >= 5, T = 2: compute_output_shape raises IndexError, though the layer transforms every input. *)
Theorem C48_output_shape_error_refuted : forall support J N B mo ov d x,
  (forall n t, 0 <= support n t) -> 5 <= J -> 2 ^ J <= N ->
  nd_dtype x = Real -> nd_wf x -> nd_shape x = [B; Z.to_nat N] ->
  let k := ScatteringKeras1D J (QInt 1) (TNum 2) mo ov in
  exists s y, keras_build1 support k (nd_shape x) = Ok s /\ keras_call1 s (mk_tf d x) = Ok (OutArray (mk_tf F32 y)) /\
    forall shape, keras_output_shape1 k s shape = Err IndexError.
Proof.
  intros support J N B mo ov d x Hsup HJ HN Hd Hw Hsh k. pose proof (pow2_pos J ltac:(lia)) as P.
  assert (HN32 : 32 <= N) by (assert (2 ^ 5 <= 2 ^ J) by (apply Z.pow_le_mono_r; lia); lia).
  assert (HT : parse_T (TNum 2) J N = Ok (2%Q, Local)).
  { unfold parse_T. rewrite (proj2 (Qltb_false _ _)); [reflexivity|]. unfold Qle. cbn. lia. }
  assert (ET : log2_T_of (TNum 2) J N = Ok 1) by (unfold log2_T_of, T_of; rewrite HT; reflexivity).
  destruct (object support J N 1 (TNum 2) 2 0 SNone 2%Q Local) as (s & Hs & Ea & Els & Em); try assumption; try lia; try reflexivity.
  { change (log2_floor 2%Q J) with 1. assert (2 ^ Z.max 1 (J - 2) <= 2 ^ J) by (apply Z.pow_le_mono_r; lia). lia. }
  cbn [log2_stride_of] in Els. rewrite ET in Els.
  destruct (local_run support J N 1 (TNum 2) 2 0 s 1 1 [B] x) as (y & Ey & Sy); try assumption; try lia.
  destruct (C48_call_partial support J (QInt 1) (TNum 2) s N [B] d x y Hs ltac:(lia) Hsh Ey) as (s' & Eb & Ec).
  exists s', y. split; [exact Eb|]. split; [exact Ec|].
  assert (s' = s) as ->. { rewrite Hsh in Eb. change [B; Z.to_nat N] with ([B] ++ [Z.to_nat N]) in Eb. rewrite keras_build_args, Z2Nat.id in Eb by lia. congruence. }
  intros shape. unfold keras_output_shape1.
  assert (Eo : output_size s = Err IndexError); [|now rewrite Eo].
  apply (C18_meta_returns support (args J N (QInt 1) (TNum 2) 2 0) "array" s N 1 1 1 1); try assumption; try reflexivity; try (cbn [args p_J p_max_order]; lia).
  intros [F|F]; [discriminate|]. destruct (new_banks _ _ _ _ Hs 1 1 eq_refl) as (A1 & A2 & J1 & J2).
  destruct (q1_filter J (s_psi1 s) 4 ltac:(lia) A1 J1 ltac:(lia)) as (f1 & I1 & Hj1).
  destruct (q1_filter J (s_psi2 s) 5 ltac:(lia) A2 J2 ltac:(lia)) as (f2 & I2 & Hj2).
  specialize (F f1 f2 I1 I2). lia.
Qed.
Print Assumptions C48_output_shape_error_refuted.

(** ** get_config *)
(** It never returns: the layer has no attribute max_order. *)
Theorem C48_get_config_refuted : forall J Q T mo ov,
  exists e, keras_get_config1 (ScatteringKeras1D J Q T mo ov) = Err e /\ ((exists q, Q_of Q = Ok q) -> e = AttributeError).
Proof.
  intros J Q T mo ov. unfold keras_get_config1. cbn [mapM getattr1 String.eqb Ascii.eqb Bool.eqb find instance_attributes fst snd bind ScatteringKeras1D k_Q].
  destruct (Q_of Q) as [q|e]; cbn [bind].
  - exists AttributeError. split; reflexivity.
  - exists e. split; [reflexivity|]. now intros [q Hq].
Qed.
Print Assumptions C48_get_config_refuted.

(** ** Cases *)
(** J = 3, N = 64, T = 4, three signals: the hypotheses of the theorems about shapes are met. *)
Example C48_instance : parse_T TNone 3 64 = Ok (Qpower 2 3, Local) /\ log2_floor (Qpower 2 3) 3 = 3 /\
  parse_T (TNum 4) 3 64 = Ok (4%Q, Local) /\ log2_floor 4%Q 3 = 2 /\ nd_wf (ones3 64) /\ nd_shape (ones3 64) = [3; Z.to_nat 64]%nat /\
  exists s y, keras_build1 (fun _ _ => 1) (ScatteringKeras1D 3 (QInt 8) TNone 2 0) [3; 64]%nat = Ok s /\
    keras_call1 s (mk_tf F64 (ones3 64)) = Ok (OutArray (mk_tf F32 y)).
Proof.
  repeat (split; [first [reflexivity|apply ones3_wf]|]).
  destruct (C48_output_shape_partial (fun _ _ => 1) 3 64 8 TNone (Qpower 2 3) 3 2 0 F64 (ones3 64)) as (s & y & nc & L & A & B & _); try reflexivity; try lia; try apply ones3_wf.
  now exists s, y.
Qed.
