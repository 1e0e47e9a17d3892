(** Properties C04, C15, C21, C22, C34 and the NumPy part of C17: lengths, shapes and batch axes of
    constructed Scattering1D objects with the NumPy backend over the complex numbers. *)
From Coq Require Import String Reals ZArith QArith List Bool Lia Lra Permutation.
From Coquelicot Require Import Complex.
From Verif Require Import Base BaseProofs NdArray Backend Core1d Utils1d Utils1dProofs Frontend1d Spec1d Core1dProofs
  Frontend1dProofs NdProofs Rows1d FrontRows Factory1d FactoryProofs ComplexOps FilterBank1d FilterBank1dProofs Construct1d
  Shape1d PropFilters1d.
Import ListNotations.
Local Open Scope Z_scope.
Local Open Scope res_scope.

(** The [i]-th row of length [n] of an array in row-major order: the signal at the [i]-th batch index. *)
Definition signal (n i : nat) (x : nd C) : list C := firstn n (skipn (i * n) (nd_data x)).

Lemma signal_of d pre n rows i : rows_ok pre n rows -> signal n i (of_rows d pre n rows) = nth i rows [].
Proof. intros [_ H]. unfold signal. cbn. now apply firstn_skipn_concat. Qed.

Lemma nth_slice {A} a c (l : list A) dflt u : (u < c - a)%nat -> nth u (slice a c l) dflt = nth (a + u) l dflt.
Proof.
  intros Hu. unfold slice. revert l c Hu. induction a as [|a IH]; intros l c Hu.
  - cbn [skipn Nat.add]. rewrite Nat.sub_0_r in *. revert u c Hu. induction l as [|b l IHl]; intros u c Hu.
    + now rewrite firstn_nil.
    + destruct c; [lia|]. destruct u; cbn; [reflexivity|]. apply IHl. lia.
  - destruct l as [|b l]; [rewrite skipn_nil, firstn_nil; now destruct u|]. cbn [skipn Nat.add nth].
    destruct c; [lia|]. apply (IH l c). lia.
Qed.

(** Length of the coefficients in terms of multiples of the stride. *)
Definition n_multiples (k a N : Z) : nat := List.length (List.filter (fun i => i mod 2 ^ k =? 0) (zrange a (a + N))).

Lemma final_len_multiples (s : scat1d (nd C) R) n l ls key : 0 <= ls ->
  final_len s n l ls Local key = n_multiples ls (Z.of_nat l) (Z.of_nat n).
Proof.
  intros Hls. pose proof (pow2_pos ls Hls) as Hp. unfold n_multiples.
  pose proof (count_multiples (2 ^ ls) (Z.of_nat l) (Z.of_nat n) Hp ltac:(lia)) as E.
  unfold final_len, hi, lo, res_of, resolution. cbn [is_local]. rewrite Nat2Z.inj_add.
  assert (0 <= cdiv (Z.of_nat l) (2 ^ ls)).
  { unfold cdiv. pose proof (Z.div_le_upper_bound (- Z.of_nat l) (2 ^ ls) 0 Hp). lia. }
  lia.
Qed.

(** C04.  Every path of a successful call with local averaging. *)
Theorem C04_time_samples : forall support p out s N ls batch x l,
  (forall n t, 0 <= support n t) -> Scattering1D support p out = Ok s ->
  N_input_of (p_shape p) = Ok N -> 1 <= N -> 0 <= p_J p -> 1 <= p_max_order p <= 2 ->
  s_average s = Ok Local -> s_log2_stride s = Ok ls ->
  nd_wf x -> nd_shape x = batch ++ [Z.to_nat N] -> (0 < prod batch)%nat ->
  scattering np (with_out s "list") x = Ok (OutList l) ->
  let L := n_multiples ls (s_pad_left s) N in
  (forall q, In q l -> nd_shape (p_coef q) = batch ++ [L] /\ nd_wf (p_coef q)) /\
  N / 2 ^ ls <= Z.of_nat L <= (N + 2 ^ ls - 1) / 2 ^ ls /\
  exists i0 i1, dict_get (s_ind_start s) ls = Ok i0 /\ dict_get (s_ind_end s) ls = Ok i1 /\
    0 <= i0 <= i1 /\ i1 <= (s_pad_left s + N + s_pad_right s) / 2 ^ ls /\ Z.of_nat L = i1 - i0.
Proof.
  intros support p out s N ls batch x l Hsup H EN HN HJ Hmo Ea Els Hw Hsh Hb Hrun L.
  apply scattering_list_inv in Hrun. destruct Hrun as (S & HS & ->). rewrite paths_with_out in HS.
  destruct (run_ready _ _ _ _ _ _ _ _ Hsup H EN HN HJ Hmo Hw Hsh Hb HS) as (Hd & pl & pr & m & ls' & a & R & El & Er).
  pose proof (rd_stride _ _ _ _ _ _ _ R) as E1. rewrite Els in E1. injection E1; intros <-.
  pose proof (rd_avg _ _ _ _ _ _ _ R) as E2. rewrite Ea in E2. injection E2; intros <-.
  assert (Hls : 0 <= ls) by apply (adm_ls _ _ _ _ _ _ _ (rd_adm _ _ _ _ _ _ _ R)).
  assert (EL : L = final_len s (Z.to_nat N) pl ls Local []).
  { rewrite final_len_multiples by assumption. unfold L. rewrite El, Z2Nat.id by lia. reflexivity. }
  pose proof (pow2_pos ls Hls) as Hp.
  destruct (of_rows_intro x batch (Z.to_nat N) Hw Hsh) as (rows & Ex & Hr). rewrite Hd in Ex.
  destruct (paths_rows complex_ops complex_ops_ok s _ _ _ _ _ _ R batch rows Hr) as (S' & ES & F).
  rewrite <- Ex, HS in ES. injection ES; intros <-.
  split; [|split].
  - intros q Hq. rewrite Forall_forall in F.
    destruct (F q (Permutation_in _ (map_sort_paths S) Hq)) as [Ec Rc]. rewrite Ec.
    split; [|now apply of_rows_wf]. cbn [of_rows nd_shape]. rewrite EL. reflexivity.
  - unfold L, n_multiples. pose proof (count_multiples (2 ^ ls) (s_pad_left s) N Hp ltac:(lia)) as G.
    pose proof (cdiv_len_bounds (2 ^ ls) (s_pad_left s) N Hp ltac:(lia)) as B.
    assert (Ec : cdiv N (2 ^ ls) = (N + 2 ^ ls - 1) / 2 ^ ls).
    { unfold cdiv. apply Z.div_unique with (2 ^ ls - 1 - (- N) mod 2 ^ ls).
      - left. pose proof (Z.mod_pos_bound (- N) (2 ^ ls) Hp). lia.
      - pose proof (Z.div_mod (- N) (2 ^ ls) ltac:(lia)). lia. }
    lia.
  - destruct (adm_phi _ _ _ _ _ _ _ (rd_adm _ _ _ _ _ _ _ R) eq_refl) as [Hdv _].
    pose proof (rd_keys _ _ _ _ _ _ _ R) as Hk. cbn [is_local] in Hk.
    destruct (borders s _ _ _ _ _ _ R ls ltac:(lia) Hdv) as (D1 & D2 & D3).
    eexists _, _. split; [exact D1|]. split; [exact D2|]. split; [lia|]. split.
    + assert (EN' : (s_pad_left s + N + s_pad_right s) / 2 ^ ls = Z.of_nat ((pl + Z.to_nat N + pr) / p2 ls)).
      { rewrite Nat2Z.inj_div, p2_Z by lia. f_equal. lia. }
      lia.
    + rewrite EL. unfold final_len, res_of, resolution. cbn [is_local]. lia.
Qed.
Print Assumptions C04_time_samples.

(** C15, the part that holds: Q1 >= Q2 and stride at most 2^log2_T.  Missing: larger strides, refuted below. *)
Theorem C15_total_partial : forall support p out s N q1 q2 ls l2T,
  (forall n t, 0 <= support n t) -> Scattering1D support p out = Ok s ->
  N_input_of (p_shape p) = Ok N -> 1 <= N -> 0 <= p_J p -> 1 <= p_max_order p <= 2 ->
  Q_of (p_Q p) = Ok [QI q1; QI q2] -> 1 <= q2 <= q1 ->
  s_average s = Ok Local -> s_log2_stride s = Ok ls -> log2_T_of (p_T p) (p_J p) N = Ok l2T -> ls <= l2T ->
  forall batch x, nd_dtype x = Real -> nd_wf x -> nd_shape x = batch ++ [Z.to_nat N] ->
  (exists l, scattering np (with_out s "list") x = Ok (OutList l)) /\
  (exists d, scattering np (with_out s "dict") x = Ok (OutDict d)) /\
  (exists y, scattering np (with_out s "array") x = Ok (OutArray y) /\ nd_wf y /\
     nd_shape y = batch ++ [List.length (expected_keys (Z.to_nat (p_max_order p)) (map f_j (s_psi1 s)) (map f_j (s_psi2 s)));
                            n_multiples ls (s_pad_left s) N]).
Proof.
  intros support p out s N q1 q2 ls l2T Hsup H EN HN HJ Hmo EQ Hq Ea Els ET Hle batch x Hd Hw Hsh.
  assert (Emo : s_max_order s = p_max_order p).
  { apply new_inv in H. destruct H as (b & Qs & T & l & phi & psi1s & psi2s & H). destruct H as (_ & _ & _ & _ & _ & _ & ->). reflexivity. }
  destruct (new_ready complex_ops formulas1d formulas1d_sane support p out s N q1 q2 ls Local l2T) as (pl & pr & R);
    try assumption; try congruence.
  destruct (of_rows_intro x batch (Z.to_nat N) Hw Hsh) as (rows & Ex & Hr). rewrite Hd in Ex.
  destruct (paths_rows complex_ops complex_ops_ok s _ _ _ _ _ _ R batch rows Hr) as (S & ES & F).
  rewrite <- Ex in ES.
  assert (Hls : 0 <= ls) by apply (adm_ls _ _ _ _ _ _ _ (rd_adm _ _ _ _ _ _ _ R)).
  split; [|split].
  - eexists. eapply list_run; eassumption.
  - pose proof (scattering_paths np (with_out s "dict") x) as E. rewrite E. clear E.
    replace (check_runtime_args (with_out s "dict")) with (Ok tt).
    2:{ symmetry. apply check_runtime_args_ok. split; [cbn; tauto|]. exists Local. split; [exact Ea|]. intros [K _]. discriminate. }
    cbn [bind]. unfold check_input. change (be_shape np x) with (nd_shape x). rewrite Hsh, app_length.
    cbn [List.length]. replace (Nat.ltb (List.length batch + 1) 1) with false by (symmetry; apply Nat.ltb_ge; lia).
    cbn [raise_if bind]. rewrite paths_with_out, ES. cbn [bind]. eexists. reflexivity.
  - assert (Erun : scattering np (with_out s "array") x = format_out np "array" S).
    { eapply list_run_gen; [exact Ea|right; split; [reflexivity|discriminate]|exact Hsh|exact ES]. }
    rewrite Erun. unfold format_out. cbn [String.eqb Ascii.eqb Bool.eqb numpy_backend be_stack].
    set (L := n_multiples ls (s_pad_left s) N).
    assert (EL : forall key, final_len s (Z.to_nat N) pl ls Local key = L).
    { intros key. rewrite final_len_multiples by assumption. unfold L. rewrite (rd_left _ _ _ _ _ _ _ R), Z2Nat.id by lia. reflexivity. }
    assert (Ks : map p_coef (sort_paths S) =
       map (of_rows Real batch L) (map (fun q => map (final complex_ops s (Z.to_nat N) pl pr ls Local (p_n q)) rows) (sort_paths S))).
    { rewrite map_map. apply map_ext_in. intros q Hin. rewrite Forall_forall in F.
      destruct (F q (Permutation_in _ (map_sort_paths S) Hin)) as [Ec _]. rewrite Ec, EL. reflexivity. }
    assert (FR : Forall (rows_ok batch L) (map (fun q => map (final complex_ops s (Z.to_nat N) pl pr ls Local (p_n q)) rows) (sort_paths S))).
    { apply Forall_map, Forall_forall. intros q Hin. rewrite Forall_forall in F.
      destruct (F q (Permutation_in _ (map_sort_paths S) Hin)) as [_ Rc]. rewrite EL in Rc. exact Rc. }
    pose proof (paths_sorted_keys np s x S ltac:(lia) ES) as Ek.
    assert (Elen : List.length (sort_paths S) = List.length (expected_keys (Z.to_nat (p_max_order p)) (map f_j (s_psi1 s)) (map f_j (s_psi2 s)))).
    { rewrite <- (map_length p_n), Ek, Emo. reflexivity. }
    rewrite Ks, stack_of; [|intros K; apply (f_equal (@List.length _)) in K; rewrite map_length, Elen in K; discriminate|exact FR].
    cbn [bind]. eexists. split; [reflexivity|]. split.
    + apply of_rows_wf. apply interleave_ok; [reflexivity|exact FR].
    + cbn [of_rows nd_shape]. rewrite <- app_assoc. cbn [app]. rewrite map_length, Elen. reflexivity.
Qed.
Print Assumptions C15_total_partial.
(** Instance: J = 4, Q = 8, N = 100, a batch of 3 x 2 zero signals. *)
Example C15_instance : exists s y,
  Scattering1D (fun _ _ => 30) (mk_params 4 100 (QInt 8) TNone SNone 2) "array" = Ok s /\
  scattering np (with_out s "array") (mk_nd Real [3; 2; 100]%nat (repeat (RtoC 0) 600)) = Ok (OutArray y) /\
  exists c t, nd_shape y = [3; 2; c; t]%nat /\ 6 <= Z.of_nat t <= 7.
Proof.
  destruct C12_C13_C14_instance as (s & Hs & _ & _ & Els & Ea).
  set (x := mk_nd Real [3; 2; 100]%nat (repeat (RtoC 0) 600)).
  assert (Hw : nd_wf x) by reflexivity.
  set (p := mk_params 4 100 (QInt 8) TNone SNone 2) in *.
  assert (H30 : forall (n : Z) (t : Q), 0 <= 30) by (intros; lia).
  assert (EN : N_input_of (p_shape p) = Ok 100) by reflexivity.
  assert (EQ : Q_of (p_Q p) = Ok [QI 8; QI 1]) by reflexivity.
  assert (ET : log2_T_of (p_T p) (p_J p) 100 = Ok 4) by reflexivity.
  assert (HJ : 0 <= p_J p) by (cbn; lia). assert (Hmo : 1 <= p_max_order p <= 2) by (cbn; lia).
  pose proof (C15_total_partial (fun _ _ => 30) p "array" s 100 8 1 4 4 H30 Hs EN ltac:(lia) HJ Hmo EQ ltac:(lia) Ea Els ET
    ltac:(lia) [3; 2]%nat x eq_refl Hw eq_refl) as (Hl & _ & y & Hy & _ & Sy).
  exists s, y. split; [exact Hs|]. split; [exact Hy|]. eexists _, _. split; [exact Sy|].
  destruct Hl as (l & Hl).
  destruct (C04_time_samples (fun _ _ => 30) p "array" s 100 4 [3; 2]%nat x l H30 Hs EN ltac:(lia) HJ Hmo Ea Els Hw eq_refl ltac:(cbn; lia) Hl)
    as (_ & B & _).
  exact B.
Qed.

(** C15, refuted for strides larger than T: the object is constructed but every call raises. *)
Theorem C15_large_stride_refuted : forall support J N, (forall n t, 0 <= support n t) ->
  5 <= J -> 2 ^ J <= N ->
  exists s, Scattering1D support (mk_params J N (QInt 1) (TNum 2) (SInt (2 ^ J)) 2) "array" = Ok s /\
    s_average s = Ok Local /\
    forall batch x, nd_wf x -> nd_shape x = batch ++ [Z.to_nat N] -> exists e, scattering np s x = Err e.
Proof.
  intros support J N Hsup HJ HN. set (p := mk_params J N (QInt 1) (TNum 2) (SInt (2 ^ J)) 2).
  assert (HN32 : 32 <= N) by (assert (2 ^ 5 <= 2 ^ J) by (apply Z.pow_le_mono_r; lia); lia).
  assert (HT : parse_T (TNum 2) J N = Ok (2%Q, Local)).
  { unfold parse_T. rewrite (proj2 (Qltb_false _ _)); [reflexivity|]. unfold Qle. cbn. lia. }
  destruct (build_total support p N (SInt (2 ^ J)) 2%Q) as [b Hb]; [reflexivity|lia|apply Hsup|reflexivity| |].
  { cbn [p p_T p_J mk_params]. unfold T_of. rewrite HT. reflexivity. }
  assert (HbN : b_N b = N).
  { destruct (build_inv _ _ _ Hb) as (st & T & l & r & EN & _). cbn in EN. congruence. }
  destruct (build_plan support _ b Hsup Hb) as (_ & B1 & _); [lia|].
  assert (El : log2_T_of (p_T p) (p_J p) N = Ok 1).
  { cbn [p p_T p_J mk_params]. unfold log2_T_of, T_of. rewrite HT. reflexivity. }
  assert (EQ : Q_of (p_Q p) = Ok [QI 1; QI 1]) by reflexivity.
  destruct (new_total support p "array" b 1 1 1) as [s Hs]; try assumption; try lia.
  { cbn [p p_J mk_params]. lia. }
  { rewrite HbN. exact El. }
  { cbn [p p_J mk_params]. assert (2 ^ Z.max 1 (J - 2) <= 2 ^ J) by (apply Z.pow_le_mono_r; lia). lia. }
  exists s. split; [exact Hs|].
  pose proof (new_inv _ _ _ _ _ _ Hs) as (b' & Qs & T & l2T & phi & psi1s & psi2s & Hb' & EQ' & ET & El' & EF & _ & Es).
  rewrite Hb in Hb'. injection Hb'; intros <-. rewrite EQ in EQ'. injection EQ'; intros <-.
  rewrite HbN, El in El'. injection El'; intros <-.
  assert (Ea : s_average s = Ok Local).
  { rewrite Es. cbn [s_average p p_T p_J mk_params]. rewrite HbN. unfold average_of. now rewrite HT. }
  split; [exact Ea|]. intros batch x Hw Hsh.
  assert (Els : s_log2_stride s = Ok J).
  { rewrite Es. cbn [s_log2_stride]. destruct (build_inv _ _ _ Hb) as (st & T' & l & r & _ & EO & _ & _ & Eb).
    cbn [p p_oversampling mk_params oversampling_check] in EO. cbn in EO. injection EO; intros <-. rewrite Eb. cbn [b_stride b_N p p_T p_J mk_params]. rewrite HbN.
    cbn [log2_stride_of]. pose proof (pow2_pos J ltac:(lia)). destruct (Z.leb_spec (2 ^ J) 0); [lia|].
    rewrite Z.log2_pow2 by lia. rewrite Z.eqb_refl. cbn [negb]. unfold average_of. rewrite HT. reflexivity. }
  rewrite scattering_paths.
  destruct (check_runtime_args s) as [u1|e1]; [cbn [bind]|eexists; reflexivity].
  destruct (check_input _) as [u2|e2]; [cbn [bind]|eexists; reflexivity].
  destruct (paths np s x) as [S|e] eqn:HS; [exfalso|eexists; reflexivity].
  apply paths_inv in HS. destruct HS as (bt & n & x' & U0 & ls & a & gen & _ & _ & _ & Els' & Ea' & Eg & _).
  rewrite Els in Els'. injection Els'; intros <-. rewrite Ea in Ea'. injection Ea'; intros <-.
  rewrite Es in Eg. cbn [s_phi psis_of s_max_order s_psi1 s_psi2 p p_max_order mk_params] in Eg.
  change (firstn (Z.to_nat 2) [psi1s; psi2s]) with [psi1s; psi2s] in Eg.
  destruct (factory_banks _ _ _ _ _ _ _ _ _ EF) as (P1 & P2 & J1 & J2). rewrite Forall_forall in J1, J2.
  assert (G : forall psis k, map params_of psis = anden_list J 1 sigma0 r_psi ->
    (forall f, In f psis -> f_j f = scale (f_xi f) (f_sigma f)) ->
    (k <= Z.to_nat J)%nat -> exists f : Core1d.filter (nd C) R, In f psis /\ f_j f = Z.max (Z.of_nat k - 2) 0).
  { intros psis k Hp Hj Hk.
    assert (I1 : In (35 / 100 / 2 ^ k, rho 1 * (35 / 100 / 2 ^ k))%R (map params_of psis)).
    { rewrite Hp. rewrite (anden_unique J 1 sigma0 r_psi _ _ (anden_list_ok J 1 ltac:(lia) ltac:(lia)) (anden_Q1 J ltac:(lia))).
      apply in_map_iff. exists k. split; [reflexivity|]. apply in_seq. lia. }
    apply in_map_iff in I1 as (f1 & E1 & I1). exists f1. split; [exact I1|]. injection E1; intros E1b E1a.
    now rewrite (Hj f1 I1), E1a, E1b, scale_Q1. }
  destruct (G psi1s 4%nat P1 J1 ltac:(lia)) as (f1 & I1 & Hj1).
  destruct (G psi2s 5%nat P2 J2 ltac:(lia)) as (f2 & I2 & Hj2).
  destruct (lookup2_of_run _ _ _ _ _ _ _ _ Eg f1 f2 I1 I2 ltac:(lia)) as [w Hw'].
  apply py_index_nonneg in Hw'; [|lia].
  assert (Hn : nth_error (f_levels f2) (Z.to_nat (Z.min (f_j f1) J)) <> None) by congruence. apply nth_error_Some in Hn.
  pose proof (psi2_levels _ _ _ _ _ _ _ _ _ f2 EF I2). lia.
Qed.
Print Assumptions C15_large_stride_refuted.

(** C21. *)
Theorem C21_wrong_length_raises : forall support p out s N batch n x,
  (forall n t, 0 <= support n t) -> Scattering1D support p out = Ok s ->
  N_input_of (p_shape p) = Ok N -> 1 <= N -> 0 <= p_J p -> 1 <= p_max_order p ->
  nd_wf x -> nd_shape x = batch ++ [n] -> Z.of_nat n <> N ->
  exists e, scattering np s x = Err e.
Proof.
  intros support p out s N batch n x Hsup H EN HN HJ Hmo Hw Hsh Hn. rewrite scattering_paths.
  destruct (check_runtime_args s) as [u1|e1]; [cbn [bind]|eexists; reflexivity].
  destruct (check_input _) as [u2|e2]; [cbn [bind]|eexists; reflexivity].
  destruct (wrong_length _ _ _ _ _ _ _ _ Hsup H EN HN HJ Hmo Hw Hsh Hn) as [e ->]. eexists; reflexivity.
Qed.
Print Assumptions C21_wrong_length_raises.
(** An object built for 100 samples and a signal of 99. *)
Example C21_instance : exists s e,
  Scattering1D (fun _ _ => 30) (mk_params 4 100 (QInt 8) TNone SNone 2) "array" = Ok s /\
  scattering np s (mk_nd Real [99]%nat (repeat (RtoC 1) 99)) = Err e.
Proof.
  destruct C12_C13_C14_instance as (s & Hs & _). exists s.
  destruct (C21_wrong_length_raises (fun _ _ => 30) (mk_params 4 100 (QInt 8) TNone SNone 2) "array" s 100 [] 99
    (mk_nd Real [99]%nat (repeat (RtoC 1) 99)) ltac:(intros; lia) Hs eq_refl ltac:(lia) ltac:(cbn; lia) ltac:(cbn; lia)
    eq_refl eq_refl ltac:(lia)) as [e He].
  exists e. split; [exact Hs|exact He].
Qed.

(** C22. *)
Lemma Forall2_keys {A B} (f : A -> list nat) (g : B -> list nat) (P : A -> Prop) (Q : B -> Prop) (Rr : A -> B -> Prop) l l' :
  map f l = map g l' -> Forall P l -> Forall Q l' -> (forall a b, f a = g b -> P a -> Q b -> Rr a b) -> Forall2 Rr l l'.
Proof.
  intros E FP FQ HR. revert l' E FQ. induction FP as [|a l Ha FP IH]; intros [|b l'] E FQ; try discriminate; constructor.
  - inversion FQ; subst. apply HR; try assumption. cbn in E. congruence.
  - inversion FQ; subst. apply IH; [cbn in E; congruence|assumption].
Qed.

Theorem C22_batch_independence : forall support p out s N batch x l,
  (forall n t, 0 <= support n t) -> Scattering1D support p out = Ok s ->
  N_input_of (p_shape p) = Ok N -> 1 <= N -> 0 <= p_J p -> 1 <= p_max_order p <= 2 ->
  nd_wf x -> nd_shape x = batch ++ [Z.to_nat N] ->
  scattering np (with_out s "list") x = Ok (OutList l) ->
  (forall i, (i < prod batch)%nat ->
   exists l', scattering np (with_out s "list") (mk_nd Real [Z.to_nat N] (signal (Z.to_nat N) i x)) = Ok (OutList l') /\
    Forall2 (fun q q' => p_n q' = p_n q /\ exists L, nd_shape (p_coef q) = batch ++ [L] /\
               nd_shape (p_coef q') = [L] /\ nd_data (p_coef q') = signal L i (p_coef q)) l l') /\
  (forall batch', prod batch' = prod batch -> (0 < prod batch)%nat ->
   exists l', scattering np (with_out s "list") (mk_nd Real (batch' ++ [Z.to_nat N]) (nd_data x)) = Ok (OutList l') /\
    Forall2 (fun q q' => p_n q' = p_n q /\ nd_data (p_coef q') = nd_data (p_coef q) /\
               exists L, nd_shape (p_coef q) = batch ++ [L] /\ nd_shape (p_coef q') = batch' ++ [L]) l l').
Proof.
  intros support p out s N batch x l Hsup H EN HN HJ Hmo Hw Hsh Hrun.
  apply scattering_list_inv in Hrun. destruct Hrun as (S & HS & ->). rewrite paths_with_out in HS.
  assert (Emo : s_max_order s = p_max_order p).
  { apply new_inv in H. destruct H as (b & Qs & T & l & phi & psi1s & psi2s & H). destruct H as (_ & _ & _ & _ & _ & _ & ->). reflexivity. }
  set (n := Z.to_nat N) in *.
  assert (Main : (0 < prod batch)%nat -> forall batch' rows', rows_ok batch' n rows' -> exists rows pl pr m ls a S',
     x = of_rows Real batch n rows /\ rows_ok batch n rows /\ ready s n pl pr m ls a /\
     scattering np (with_out s "list") (of_rows Real batch' n rows') = Ok (OutList (sort_paths S')) /\
     map p_n (sort_paths S) = map p_n (sort_paths S') /\
     Forall (fun q => p_coef q = of_rows Real batch (final_len s n pl ls a (p_n q)) (map (final complex_ops s n pl pr ls a (p_n q)) rows) /\
                 rows_ok batch (final_len s n pl ls a (p_n q)) (map (final complex_ops s n pl pr ls a (p_n q)) rows)) (sort_paths S) /\
     Forall (fun q => p_coef q = of_rows Real batch' (final_len s n pl ls a (p_n q)) (map (final complex_ops s n pl pr ls a (p_n q)) rows') /\
                 rows_ok batch' (final_len s n pl ls a (p_n q)) (map (final complex_ops s n pl pr ls a (p_n q)) rows')) (sort_paths S')).
  { intros Hb batch' rows' Hr'.
    destruct (run_ready _ _ _ _ _ _ _ _ Hsup H EN HN HJ Hmo Hw Hsh Hb HS) as (Hd & pl & pr & m & ls & a & Rd & _). fold n in Rd.
    destruct (of_rows_intro x batch n Hw Hsh) as (rows & Ex & Hr). rewrite Hd in Ex.
    destruct (paths_rows complex_ops complex_ops_ok s _ _ _ _ _ _ Rd batch rows Hr) as (S1 & ES & F).
    rewrite <- Ex, HS in ES. injection ES; intros <-.
    destruct (paths_rows complex_ops complex_ops_ok s _ _ _ _ _ _ Rd batch' rows' Hr') as (S' & ES' & F').
    exists rows, pl, pr, m, ls, a, S'. split; [exact Ex|]. split; [exact Hr|]. split; [exact Rd|]. split.
    - eapply list_run; [exact (rd_avg _ _ _ _ _ _ _ Rd)|reflexivity|exact ES'].
    - split.
      + rewrite (paths_sorted_keys np s x S ltac:(lia) HS). symmetry. exact (paths_sorted_keys np s _ S' ltac:(lia) ES').
      + split; eapply Permutation_Forall; try (apply Permutation_sym, map_sort_paths); assumption. }
  split.
  - intros i Hi.
    assert (Hr' : rows_ok [] n [signal n i x]).
    { split; [reflexivity|]. constructor; [|constructor]. unfold signal. rewrite firstn_length, skipn_length.
      unfold nd_wf in Hw. rewrite Hw, Hsh, prod_snoc. nia. }
    destruct (Main ltac:(lia) [] _ Hr') as (rows & pl & pr & m & ls & a & S' & Ex & Hr & Rd & Erun & Ek & F & F').
    exists (sort_paths S'). split.
    + rewrite <- Erun. unfold of_rows. cbn [concat app]. rewrite app_nil_r. reflexivity.
    + eapply Forall2_keys; [exact Ek|exact F|exact F'|]. cbn beta. intros q q' Eq [Eq1 Rq] [Eq2 Rq'].
      split; [congruence|]. exists (final_len s n pl ls a (p_n q)). rewrite Eq1, Eq2, <- Eq. cbn [of_rows nd_shape nd_data app map concat].
      split; [reflexivity|]. split; [reflexivity|]. rewrite app_nil_r.
      fold (of_rows Real batch (final_len s n pl ls a (p_n q)) (map (final complex_ops s n pl pr ls a (p_n q)) rows)).
      rewrite signal_of by exact Rq. rewrite Ex, signal_of by exact Hr.
      rewrite (nth_indep (map (final complex_ops s n pl pr ls a (p_n q)) rows) [] (final complex_ops s n pl pr ls a (p_n q) [])) by (rewrite map_length; destruct Hr; lia).
      now rewrite map_nth.
  - intros batch' Hb' Hb.
    assert (Hr0 : exists rows', x = of_rows (nd_dtype x) batch n rows' /\ rows_ok batch n rows') by now apply of_rows_intro.
    destruct Hr0 as (rows0 & Ex0 & Hr0).
    assert (Hr' : rows_ok batch' n rows0) by (eapply rows_ok_pre; [|exact Hr0]; congruence).
    destruct (Main Hb batch' rows0 Hr') as (rows & pl & pr & m & ls & a & S' & Ex & Hr & Rd & Erun & Ek & F & F').
    assert (rows = rows0).
    { rewrite <- (chunks_of batch n Real rows Hr), <- (chunks_of batch n (nd_dtype x) rows0 Hr0). f_equal. rewrite <- Ex0, <- Ex. reflexivity. }
    subst rows0. exists (sort_paths S'). split.
    + rewrite <- Erun. f_equal. unfold of_rows. f_equal. rewrite Ex. reflexivity.
    + eapply Forall2_keys; [exact Ek|exact F|exact F'|]. cbn beta. intros q q' Eq [Eq1 Rq] [Eq2 Rq'].
      split; [congruence|]. rewrite Eq1, Eq2, <- Eq. split; [reflexivity|].
      exists (final_len s n pl ls a (p_n q)). split; reflexivity.
Qed.
Print Assumptions C22_batch_independence.

(** C17 with the NumPy backend: channel [c] of the array is the [c]-th element of the list. *)
Theorem C17_numpy_channels : forall support p out s N batch x l,
  (forall n t, 0 <= support n t) -> Scattering1D support p out = Ok s ->
  N_input_of (p_shape p) = Ok N -> 1 <= N -> 0 <= p_J p -> 1 <= p_max_order p <= 2 ->
  nd_wf x -> nd_shape x = batch ++ [Z.to_nat N] -> (0 < prod batch)%nat -> s_average s <> Ok NoAvg ->
  scattering np (with_out s "list") x = Ok (OutList l) ->
  exists y L, scattering np (with_out s "array") x = Ok (OutArray y) /\
    nd_dtype y = Real /\ nd_wf y /\ nd_shape y = batch ++ [List.length l; L] /\
    forall c q, nth_error l c = Some q -> nd_shape (p_coef q) = batch ++ [L] /\
      forall i, (i < prod batch)%nat -> signal L (i * List.length l + c) y = signal L i (p_coef q).
Proof.
  intros support p out s N batch x l Hsup H EN HN HJ Hmo Hw Hsh Hb Hna Hrun.
  apply scattering_list_inv in Hrun. destruct Hrun as (S & HS & ->). rewrite paths_with_out in HS.
  assert (Emo : s_max_order s = p_max_order p).
  { apply new_inv in H. destruct H as (b & Qs & T & l & phi & psi1s & psi2s & H). destruct H as (_ & _ & _ & _ & _ & _ & ->). reflexivity. }
  destruct (run_ready _ _ _ _ _ _ _ _ Hsup H EN HN HJ Hmo Hw Hsh Hb HS) as (Hd & pl & pr & m & ls & a & Rd & _).
  set (n := Z.to_nat N) in *.
  destruct (of_rows_intro x batch n Hw Hsh) as (rows & Ex & Hr). rewrite Hd in Ex.
  destruct (paths_rows complex_ops complex_ops_ok s _ _ _ _ _ _ Rd batch rows Hr) as (S1 & ES & F).
  rewrite <- Ex, HS in ES. injection ES; intros <-.
  pose proof (rd_avg _ _ _ _ _ _ _ Rd) as Ea.
  assert (EL : forall key, final_len s n pl ls a key = final_len s n pl ls a []).
  { intros key. unfold final_len, res_of, resolution. destruct a; [reflexivity|reflexivity|congruence]. }
  set (L := final_len s n pl ls a []) in *.
  set (Rs := map (fun q => map (final complex_ops s n pl pr ls a (p_n q)) rows) (sort_paths S)).
  assert (F0 : forall q, In q (sort_paths S) -> p_coef q = of_rows Real batch L (map (final complex_ops s n pl pr ls a (p_n q)) rows) /\
      rows_ok batch L (map (final complex_ops s n pl pr ls a (p_n q)) rows)).
  { intros q Hq. rewrite Forall_forall in F. rewrite <- (EL (p_n q)). apply F. eapply Permutation_in; [apply map_sort_paths|exact Hq]. }
  assert (Ks : map p_coef (sort_paths S) = map (of_rows Real batch L) Rs).
  { unfold Rs. rewrite map_map. apply map_ext_in. intros q Hq. apply (F0 q Hq). }
  assert (FR : Forall (rows_ok batch L) Rs).
  { unfold Rs. apply Forall_map, Forall_forall. intros q Hq. apply (F0 q Hq). }
  assert (Hne : Rs <> []).
  { intros K. apply (f_equal (@List.length _)) in K. unfold Rs in K. rewrite map_length in K.
    pose proof (paths_sorted_keys np s x S ltac:(lia) HS) as Ek. apply (f_equal (@List.length _)) in Ek.
    rewrite map_length, K in Ek. discriminate. }
  assert (ELen : List.length Rs = List.length (sort_paths S)) by (unfold Rs; apply map_length).
  exists (of_rows Real (batch ++ [List.length Rs]) L (interleave (prod batch) Rs)), L.
  split; [|split; [reflexivity|split; [apply of_rows_wf, interleave_ok; [reflexivity|exact FR]|split]]].
  - assert (Erun : scattering np (with_out s "array") x = format_out np "array" S).
    { eapply list_run_gen; [exact Ea|right; split; [reflexivity|congruence]|exact Hsh|exact HS]. }
    rewrite Erun. unfold format_out. cbn [String.eqb Ascii.eqb Bool.eqb numpy_backend be_stack].
    rewrite Ks, stack_of by assumption. reflexivity.
  - cbn [of_rows nd_shape]. rewrite <- app_assoc, ELen. reflexivity.
  - intros c q Hc. destruct (F0 q (nth_error_In _ _ Hc)) as [Eq Rq]. rewrite Eq. split; [reflexivity|].
    intros i Hi. rewrite signal_of by (apply interleave_ok; [reflexivity|exact FR]). rewrite signal_of by exact Rq.
    rewrite <- ELen. assert (Hcl : (c < List.length Rs)%nat) by (rewrite ELen; apply nth_error_Some; congruence).
    rewrite interleave_nth by assumption. f_equal. unfold Rs.
    apply nth_error_nth. now rewrite nth_error_map, Hc.
Qed.
Print Assumptions C17_numpy_channels.

(** C34. *)
Theorem C34_pad_unpad : forall support p out s N batch x,
  (forall n t, 0 <= support n t) -> Scattering1D support p out = Ok s ->
  N_input_of (p_shape p) = Ok N -> 1 <= N ->
  nd_wf x -> nd_shape x = batch ++ [Z.to_nat N] ->
  exists y i0 i1, np_pad complex_ops x (s_pad_left s) (s_pad_right s) = Ok y /\
    dict_get (s_ind_start s) 0 = Ok i0 /\ dict_get (s_ind_end s) 0 = Ok i1 /\ np_unpad y i0 i1 = Ok x /\
    let n := Z.to_nat N in let l := Z.to_nat (s_pad_left s) in let r := Z.to_nat (s_pad_right s) in
    nd_shape y = batch ++ [l + n + r]%nat /\
    forall i, (i < prod batch)%nat ->
      (forall d, (d <= l)%nat -> nth (l - d) (signal (l + n + r) i y) (RtoC 0) = nth d (signal n i x) (RtoC 0)) /\
      (forall d, (d <= r)%nat -> nth (l + n - 1 + d) (signal (l + n + r) i y) (RtoC 0) = nth (n - 1 - d) (signal n i x) (RtoC 0)).
Proof.
  intros support p out s N batch x Hsup H EN HN Hw Hsh.
  apply new_inv in H. destruct H as (b & Qs & T & l2T & phi & psi1s & psi2s & Hb & _ & _ & _ & _ & _ & ->).
  destruct (build_inv _ _ _ Hb) as (st & T' & l' & r' & EN' & _ & _ & _ & Eb).
  assert (EbN : b_N b = N) by congruence.
  destruct (build_plan support p b Hsup Hb) as (_ & B1 & B2 & B3 & B4 & B5 & B6 & B7); [lia|]. rewrite EbN in *.
  cbn [s_pad_left s_pad_right s_ind_start s_ind_end].
  set (n := Z.to_nat N) in *. set (l := Z.to_nat (b_left b)). set (r := Z.to_nat (b_right b)).
  destruct (of_rows_intro x batch n Hw Hsh) as (rows & Ex & Hr).
  assert (Ey : np_pad complex_ops x (b_left b) (b_right b) = Ok (of_rows (nd_dtype x) batch (l + n + r) (map (pad_reflect_row complex_ops l r n) rows))).
  { rewrite Ex at 1. replace (b_left b) with (Z.of_nat l) by lia. replace (b_right b) with (Z.of_nat r) by lia.
    apply np_pad_of; [exact Hr|lia|lia]. }
  assert (Hr' : rows_ok batch (l + n + r) (map (pad_reflect_row complex_ops l r n) rows)).
  { eapply rows_ok_map; [|exact Hr]. intros; apply pad_row_length. }
  eexists _, (b_left b), (b_left b + N). split; [exact Ey|].
  assert (D : forall m i, dict_get (border_list m i) 0 = Ok i) by (intros [|m] i; reflexivity).
  split; [rewrite Eb at 1; cbn [b_start compute_border_indices fst]; rewrite D, Eb; reflexivity|].
  split; [rewrite Eb at 1; cbn [b_end compute_border_indices snd]; rewrite D, Eb; reflexivity|].
  assert (P : forall row t, (t < l + n + r)%nat ->
     nth t (pad_reflect_row complex_ops l r n row) (RtoC 0) = nth (reflect_index n (Z.of_nat t - Z.of_nat l)) row (RtoC 0)).
  { intros row t Ht. unfold pad_reflect_row.
    set (g := fun q : nat => nth (reflect_index n (Z.of_nat q - Z.of_nat l)) row (o_zero complex_ops)).
    rewrite (nth_indep _ (RtoC 0) (g 0%nat)) by (rewrite map_length, seq_length; exact Ht).
    rewrite (map_nth g). rewrite seq_nth by exact Ht. reflexivity. }
  split; [|split].
  - rewrite np_unpad_of by (try assumption; lia). rewrite Ex at 2. f_equal.
    replace (Nat.min (Z.to_nat (b_left b + N)) (l + n + r) - Nat.min (Z.to_nat (b_left b)) (l + n + r))%nat with n by lia.
    rewrite map_map. f_equal. rewrite <- (map_id rows) at 2. apply map_ext_in. intros row Hin.
    assert (Hlen : List.length row = n) by (destruct Hr as [_ Hr]; rewrite Forall_forall in Hr; auto).
    apply nth_ext with (d := RtoC 0) (d' := RtoC 0).
    + rewrite slice_length, pad_row_length. lia.
    + intros t Ht. rewrite slice_length, pad_row_length in Ht.
      rewrite nth_slice by lia. rewrite P by lia. f_equal. unfold reflect_index.
      replace (Z.of_nat (Z.to_nat (b_left b) + t) - Z.of_nat l) with (Z.of_nat t) by lia.
      destruct (Z.ltb_spec (Z.of_nat t) 0); [lia|]. destruct (Z.ltb_spec (Z.of_nat t) (Z.of_nat n)); lia.
  - reflexivity.
  - intros i Hi. rewrite signal_of by exact Hr'. 
    assert (Es : signal n i x = nth i rows []) by (rewrite Ex at 1; now apply signal_of). rewrite Es.
    rewrite (nth_indep (map (pad_reflect_row complex_ops l r n) rows) [] (pad_reflect_row complex_ops l r n [])) by (rewrite map_length; destruct Hr; lia).
    rewrite map_nth. split; intros d Hdd.
    + rewrite P by lia. f_equal. unfold reflect_index. destruct (Z.ltb_spec (Z.of_nat (l - d) - Z.of_nat l) 0); [lia|].
      destruct (Z.ltb_spec (Z.of_nat (l - d) - Z.of_nat l) (Z.of_nat n)); lia.
    + rewrite P by lia. f_equal. unfold reflect_index. destruct (Z.ltb_spec (Z.of_nat (l + n - 1 + d) - Z.of_nat l) 0); [lia|].
      destruct (Z.ltb_spec (Z.of_nat (l + n - 1 + d) - Z.of_nat l) (Z.of_nat n)); lia.
Qed.
Print Assumptions C34_pad_unpad.

(** J = 4, Q = 8, N = 100 and a 3 x 2 batch of constant signals meet the hypotheses of C17, C22 and C34. *)
Example C04_C17_C22_C34_instance : exists s l y,
  let x := mk_nd Real [3; 2; 100]%nat (repeat (RtoC 1) 600) in
  Scattering1D (fun _ _ => 30) (mk_params 4 100 (QInt 8) TNone SNone 2) "array" = Ok s /\
  s_average s = Ok Local /\ nd_wf x /\
  scattering np (with_out s "list") x = Ok (OutList l) /\
  scattering np (with_out s "array") x = Ok (OutArray y) /\
  (exists l', scattering np (with_out s "list") (mk_nd Real [100]%nat (repeat (RtoC 1) 100)) = Ok (OutList l') /\
              map p_n l' = map p_n l) /\
  (exists z, np_pad complex_ops x (s_pad_left s) (s_pad_right s) = Ok z /\ np_unpad z (s_pad_left s) (s_pad_left s + 100) = Ok x).
Proof.
  destruct C12_C13_C14_instance as (s & Hs & _ & _ & Els & Ea).
  set (x := mk_nd Real [3; 2; 100]%nat (repeat (RtoC 1) 600)).
  assert (Hw : nd_wf x) by reflexivity.
  set (p := mk_params 4 100 (QInt 8) TNone SNone 2) in *.
  assert (H30 : forall (n : Z) (t : Q), 0 <= 30) by (intros; lia).
  assert (EN : N_input_of (p_shape p) = Ok 100) by reflexivity.
  assert (EQ : Q_of (p_Q p) = Ok [QI 8; QI 1]) by reflexivity.
  assert (ET : log2_T_of (p_T p) (p_J p) 100 = Ok 4) by reflexivity.
  assert (HJ : 0 <= p_J p) by (cbn; lia). assert (Hmo : 1 <= p_max_order p <= 2) by (cbn; lia).
  pose proof (C15_total_partial (fun _ _ => 30) p "array" s 100 8 1 4 4 H30 Hs EN ltac:(lia) HJ Hmo EQ ltac:(lia) Ea Els ET
    ltac:(lia) [3; 2]%nat x eq_refl Hw eq_refl) as ((l & Hl) & _ & y & Hy & _).
  exists s, l, y. cbv zeta. split; [exact Hs|]. split; [exact Ea|]. split; [exact Hw|]. split; [exact Hl|]. split; [exact Hy|]. split.
  - destruct (C22_batch_independence (fun _ _ => 30) p "array" s 100 [3; 2]%nat x l H30 Hs EN ltac:(lia) HJ Hmo Hw eq_refl Hl) as [HB _].
    destruct (HB 4%nat ltac:(cbn; lia)) as (l' & Hl' & F). exists l'. split; [exact Hl'|].
    clear - F. induction F as [|q q' l l' [E _] F IH]; [reflexivity|]. cbn [map]. now rewrite E, IH.
  - destruct (C34_pad_unpad (fun _ _ => 30) p "array" s 100 [3; 2]%nat x H30 Hs EN ltac:(lia) Hw eq_refl)
      as (z & i0 & i1 & Ez & D0 & D1 & Eu & _).
    apply new_inv in Hs. destruct Hs as (b & Qs & T & l2T & phi & psi1s & psi2s & Hb & _ & _ & _ & _ & _ & Es).
    destruct (build_inv _ _ _ Hb) as (st & T' & l' & r' & EN' & _ & _ & _ & Eb). rewrite EN in EN'. injection EN' as EN'.
    exists z. split; [exact Ez|]. rewrite <- Eu. rewrite Es in D0, D1 |- *. cbn [s_ind_start s_ind_end s_pad_left] in *.
    assert (D : forall m i, dict_get (border_list m i) 0 = Ok i) by (intros [|m] i; reflexivity).
    rewrite Eb in D0, D1 |- *. cbn [b_start b_end compute_border_indices fst snd b_left] in *. rewrite D in D0, D1. rewrite <- EN' in D1.
    congruence.
Qed.
