(** Lemmas about the model of Utils1d.v. *)
From Coq Require Import ZArith List Bool QArith Qround Qpower Lia ZifyBool.
From Verif Require Import Base Utils1d.
Import ListNotations.
Local Open Scope Z_scope.
Local Open Scope res_scope.
Ltac Zify.zify_post_hook ::= Z.div_mod_to_equations.

Lemma pow2_pos k : 0 <= k -> 0 < 2 ^ k.
Proof. intros; apply Z.pow_pos_nonneg; lia. Qed.

Lemma compute_padding_ok N M l r : compute_padding N M = Ok (l, r) ->
  0 <= l /\ 0 <= r /\ l + M + r = N /\ l <= r <= l + 1 /\ r < M.
Proof.
  unfold compute_padding. intros H.
  destruct (N <? M) eqn:E; [discriminate|].
  destruct (M <=? _) eqn:E2; [discriminate|].
  injection H; intros; subst; clear H. lia.
Qed.

Lemma compute_padding_iff N M :
  (exists l r, compute_padding N M = Ok (l, r)) <-> M <= N /\ (N - M + 1) / 2 < M.
Proof.
  unfold compute_padding. split.
  - intros (l & r & H). destruct (N <? M) eqn:E; [discriminate|].
    destruct (M <=? _) eqn:E2; [discriminate|]. lia.
  - intros [H1 H2]. destruct (N <? M) eqn:E; [lia|].
    destruct (M <=? _) eqn:E2; [lia|]. eauto.
Qed.

Lemma compute_padding_err N M e : compute_padding N M = Err e -> e = ValueError.
Proof.
  unfold compute_padding. destruct (N <? M); [congruence|].
  destruct (M <=? _); congruence.
Qed.

(** ** The padding plan *)
Lemma J_pad_bounds N m : 1 <= N -> 0 <= m ->
  0 <= J_pad_of N m /\ N <= N_padded_of N m <= 3 * N - 2.
Proof.
  intros HN Hm. unfold N_padded_of, J_pad_of.
  set (a := Z.log2_up (N + 2 * m)). set (b := Z.log2 (3 * N - 2)).
  assert (Ha0 : 0 <= a) by apply Z.log2_up_nonneg.
  assert (Hb0 : 0 <= b) by apply Z.log2_nonneg.
  assert (Hb : 2 ^ b <= 3 * N - 2 < 2 ^ (Z.succ b)) by (apply Z.log2_spec; lia).
  assert (Ha : N <= 2 ^ a).
  { destruct (Z.eq_dec (N + 2 * m) 1) as [E|E].
    - unfold a. rewrite E. cbn. lia.
    - pose proof (Z.log2_up_spec (N + 2 * m) ltac:(lia)). unfold a. lia. }
  rewrite Z.pow_succ_r in Hb by lia.
  destruct (Z.min_spec a b) as [[H E]|[H E]]; rewrite E; repeat split; try lia.
  pose proof (Z.pow_le_mono_r 2 a b ltac:(lia) ltac:(lia)). lia.
Qed.

Lemma N_padded_fits N m : 1 <= N -> 0 <= m ->
  exists l r, compute_padding (N_padded_of N m) N = Ok (l, r).
Proof.
  intros HN Hm. apply compute_padding_iff.
  pose proof (J_pad_bounds N m HN Hm) as (_ & H). lia.
Qed.

(** ** Border indices *)
Fixpoint iter_half (n : nat) (i : Z) : Z :=
  match n with O => i | S n' => iter_half n' (half_up i) end.

Lemma border_list_length n i : length (border_list n i) = S n.
Proof. revert i; induction n; intros; cbn [border_list length]; [reflexivity|]. now rewrite IHn. Qed.

Lemma border_list_nth n i k : (k <= n)%nat -> nth_error (border_list n i) k = Some (iter_half k i).
Proof.
  revert i k. induction n; intros i k Hk.
  - assert (k = 0%nat) by lia. subst. reflexivity.
  - destruct k; cbn [border_list nth_error iter_half]; [reflexivity|]. apply IHn. lia.
Qed.

Lemma half_up_spec i m : i <= 2 * m <-> half_up i <= m.
Proof. unfold half_up. lia. Qed.

Lemma iter_half_spec k i m : iter_half k i <= m <-> i <= m * 2 ^ (Z.of_nat k).
Proof.
  revert i m. induction k; intros i m; cbn [iter_half].
  - rewrite Z.pow_0_r. lia.
  - rewrite IHk, <- half_up_spec. rewrite Nat2Z.inj_succ, Z.pow_succ_r by lia.
    split; intro; lia.
Qed.

Lemma iter_half_ceil k i : iter_half k i = - ((- i) / 2 ^ (Z.of_nat k)).
Proof.
  set (p := 2 ^ Z.of_nat k).
  assert (Hp : 0 < p) by (apply pow2_pos; lia).
  pose proof (Z.div_mod (- i) p ltac:(lia)) as E.
  pose proof (Z.mod_pos_bound (- i) p Hp) as B.
  set (q := (- i) / p) in *.
  assert (H1 : iter_half k i <= - q).
  { apply iter_half_spec. fold p. nia. }
  assert (H2 : ~ iter_half k i <= - q - 1).
  { rewrite iter_half_spec. fold p. nia. }
  lia.
Qed.

Lemma dict_get_border n i j : 0 <= j <= Z.of_nat n ->
  dict_get (border_list n i) j = Ok (iter_half (Z.to_nat j) i).
Proof.
  intros H. unfold dict_get. destruct (j <? 0) eqn:E; [lia|].
  rewrite border_list_nth by lia. reflexivity.
Qed.

Lemma dict_get_border_out n i j : j < 0 \/ Z.of_nat n < j ->
  dict_get (border_list n i) j = Err KeyError.
Proof.
  intros H. unfold dict_get. destruct (j <? 0) eqn:E; [reflexivity|].
  replace (nth_error (border_list n i) (Z.to_nat j)) with (@None Z); [reflexivity|].
  symmetry. apply nth_error_None. rewrite border_list_length. lia.
Qed.

Lemma border_indices_spec log2_T J i0 i1 j :
  0 <= j <= Z.max log2_T J ->
  exists s e,
    dict_get (fst (compute_border_indices log2_T J i0 i1)) j = Ok s /\
    dict_get (snd (compute_border_indices log2_T J i0 i1)) j = Ok e /\
    forall m, (s <= m < e) <-> (i0 <= m * 2 ^ j < i1).
Proof.
  intros Hj. unfold compute_border_indices. cbn [fst snd].
  exists (iter_half (Z.to_nat j) i0), (iter_half (Z.to_nat j) i1).
  repeat split; try (apply dict_get_border; lia).
  all: pose proof (iter_half_spec (Z.to_nat j) i0 m) as A;
       pose proof (iter_half_spec (Z.to_nat j) i1 m) as B;
       rewrite Z2Nat.id in A, B by lia; lia.
Qed.

Lemma border_indices_out log2_T J i0 i1 j :
  0 <= Z.max log2_T J -> j < 0 \/ Z.max log2_T J < j ->
  dict_get (fst (compute_border_indices log2_T J i0 i1)) j = Err KeyError /\
  dict_get (snd (compute_border_indices log2_T J i0 i1)) j = Err KeyError.
Proof.
  intros H0 Hj. unfold compute_border_indices. cbn [fst snd].
  split; apply dict_get_border_out; lia.
Qed.

(** ** Counting multiples of a stride in an interval *)
Lemma zrange_nil a b : b <= a -> zrange a b = [].
Proof. intros. unfold zrange. replace (Z.to_nat (b - a)) with 0%nat by lia. reflexivity. Qed.

Lemma zrange_snoc a b : a <= b -> zrange a (b + 1) = zrange a b ++ [b].
Proof.
  intros. unfold zrange. replace (Z.to_nat (b + 1 - a)) with (S (Z.to_nat (b - a))) by lia.
  rewrite seq_S, map_app. cbn [map]. repeat f_equal. lia.
Qed.

Lemma In_zrange a b x : In x (zrange a b) <-> a <= x < b.
Proof.
  unfold zrange. rewrite in_map_iff. split.
  - intros (k & E & H). apply in_seq in H. lia.
  - intros H. exists (Z.to_nat (x - a)). split; [lia|]. apply in_seq. lia.
Qed.

Definition cdiv (i p : Z) : Z := - ((- i) / p).

Lemma cdiv_succ p b : 0 < p ->
  cdiv (b + 1) p = cdiv b p + (if b mod p =? 0 then 1 else 0).
Proof.
  intros Hp. unfold cdiv.
  pose proof (Z.div_mod (- b) p ltac:(lia)) as E.
  pose proof (Z.mod_pos_bound (- b) p Hp) as B.
  pose proof (Z.div_mod (- (b + 1)) p ltac:(lia)) as E'.
  pose proof (Z.mod_pos_bound (- (b + 1)) p Hp) as B'.
  pose proof (Z.div_mod b p ltac:(lia)) as E2.
  pose proof (Z.mod_pos_bound b p Hp) as B2.
  set (q := (- b) / p) in *. set (q' := (- (b + 1)) / p) in *. set (q2 := b / p) in *.
  set (r := (- b) mod p) in *. set (r' := (- (b + 1)) mod p) in *. set (r2 := b mod p) in *.
  clearbody q q' q2 r r' r2.
  destruct (r2 =? 0) eqn:Er.
  - assert (r2 = 0) by lia. assert (p * (q + q2) + r = 0) by lia.
    assert (q + q2 = 0) by nia. nia.
  - assert (p * (q + q2) + r + r2 = 0) by lia.
    assert (q + q2 = -1) by nia.
    assert (p * (q' + q2) + r' + r2 + 1 = 0) by lia.
    assert (q' + q2 = -1) by nia. lia.
Qed.

Lemma count_multiples p a n : 0 < p -> 0 <= n ->
  Z.of_nat (length (filter (fun i => i mod p =? 0) (zrange a (a + n)))) = cdiv (a + n) p - cdiv a p.
Proof.
  intros Hp Hn. revert n Hn. apply natlike_ind.
  - rewrite Z.add_0_r, zrange_nil by lia. cbn. lia.
  - intros n Hn IH. unfold Z.succ. rewrite Z.add_assoc, zrange_snoc by lia.
    rewrite filter_app, app_length, Nat2Z.inj_add, IH, cdiv_succ by lia. cbn [filter].
    destruct ((a + n) mod p =? 0); cbn [length]; lia.
Qed.

Lemma cdiv_len_bounds p a n : 0 < p -> 0 <= n ->
  n / p <= cdiv (a + n) p - cdiv a p <= cdiv n p.
Proof.
  intros Hp Hn. unfold cdiv.
  pose proof (Z.div_mod (- (a + n)) p ltac:(lia)) as E1.
  pose proof (Z.mod_pos_bound (- (a + n)) p Hp) as B1.
  pose proof (Z.div_mod (- a) p ltac:(lia)) as E2.
  pose proof (Z.mod_pos_bound (- a) p Hp) as B2.
  pose proof (Z.div_mod (- n) p ltac:(lia)) as E3.
  pose proof (Z.mod_pos_bound (- n) p Hp) as B3.
  pose proof (Z.div_mod n p ltac:(lia)) as E4.
  pose proof (Z.mod_pos_bound n p Hp) as B4.
  nia.
Qed.

Lemma cdiv_le_div p a M : 0 < p -> (p | M) -> a <= M -> cdiv a p <= M / p.
Proof.
  intros Hp [q E] Ha. subst M. rewrite Z.div_mul by lia. unfold cdiv.
  pose proof (Z.div_mod (- a) p ltac:(lia)) as E1.
  pose proof (Z.mod_pos_bound (- a) p Hp) as B1. nia.
Qed.

(** ** build *)
Lemma build_inv support p b : build support p = Ok b ->
  exists stride T l r,
    N_input_of (p_shape p) = Ok (b_N b) /\
    oversampling_check (p_oversampling p) (p_stride p) (p_T p) (p_J p) (b_N b) = Ok stride /\
    T_of (p_T p) (p_J p) (b_N b) = Ok T /\
    compute_padding (N_padded_of (b_N b) (3 * support (b_N b) T)) (b_N b) = Ok (l, r) /\
    b = {| b_N := b_N b; b_stride := stride;
           b_Npad := N_padded_of (b_N b) (3 * support (b_N b) T);
           b_left := l; b_right := r;
           b_start := fst (compute_border_indices (log2_floor T (p_J p)) (p_J p) l (l + b_N b));
           b_end := snd (compute_border_indices (log2_floor T (p_J p)) (p_J p) l (l + b_N b)) |}.
Proof.
  unfold build. intros H.
  destruct (N_input_of (p_shape p)) as [N|] eqn:EN; [cbn [bind] in H|discriminate].
  destruct (oversampling_check _ _ _ _ _) as [st|] eqn:ES; [cbn [bind] in H|discriminate].
  destruct (T_of (p_T p) (p_J p) N) as [T|] eqn:ET; [cbn [bind] in H|discriminate].
  unfold log2_T_of in H. rewrite ET in H. cbn [bind] in H.
  destruct (compute_padding _ _) as [[l r]|] eqn:EP; [cbn [bind fst snd] in H|discriminate].
  destruct (compute_border_indices _ _ _ _) as [is ie] eqn:EB.
  injection H; intros <-. cbn [b_N]. exists st, T, l, r. rewrite EB. cbn [fst snd].
  repeat split; assumption.
Qed.

Lemma build_total support p N stride T :
  N_input_of (p_shape p) = Ok N -> 1 <= N -> 0 <= support N T ->
  oversampling_check (p_oversampling p) (p_stride p) (p_T p) (p_J p) N = Ok stride ->
  T_of (p_T p) (p_J p) N = Ok T ->
  exists b, build support p = Ok b.
Proof.
  intros EN HN Hs ES ET. unfold build. rewrite EN. cbn [bind]. rewrite ES. cbn [bind].
  rewrite ET. cbn [bind]. destruct (N_padded_fits N (3 * support N T) HN ltac:(lia)) as (l & r & E).
  rewrite E. cbn [bind fst snd]. unfold log2_T_of. rewrite ET. cbn [bind].
  destruct (compute_border_indices _ _ _ _). eauto.
Qed.

Lemma build_plan support p b : (forall n t, 0 <= support n t) ->
  build support p = Ok b -> 1 <= b_N b ->
  (exists k, 0 <= k /\ b_Npad b = 2 ^ k) /\
  b_N b <= b_Npad b <= 3 * b_N b - 2 /\
  0 <= b_left b /\ 0 <= b_right b /\ b_left b + b_N b + b_right b = b_Npad b /\
  b_left b <= b_right b <= b_left b + 1 /\ b_right b < b_N b /\ b_left b < b_N b.
Proof.
  intros Hs Hb HN. destruct (build_inv _ _ _ Hb) as (st & T & l & r & _ & _ & _ & EP & Eb).
  pose proof (Hs (b_N b) T) as Hs'.
  pose proof (J_pad_bounds (b_N b) (3 * support (b_N b) T) HN ltac:(lia)) as (K & B).
  apply compute_padding_ok in EP.
  set (NP := N_padded_of (b_N b) (3 * support (b_N b) T)) in *.
  assert (EN : b_Npad b = NP) by (rewrite Eb; reflexivity).
  assert (EL : b_left b = l) by (rewrite Eb; reflexivity).
  assert (ER : b_right b = r) by (rewrite Eb; reflexivity).
  rewrite EN, EL, ER. split; [|lia].
  exists (J_pad_of (b_N b) (3 * support (b_N b) T)). split; [assumption|reflexivity].
Qed.

(** ** parse_T *)
Lemma Qltb_spec a b : Qltb a b = true <-> (a < b)%Q.
Proof.
  unfold Qltb. rewrite negb_true_iff. split.
  - intros H. apply Qnot_le_lt. intros L. apply Qle_bool_iff in L. congruence.
  - intros H. destruct (Qle_bool b a) eqn:E; [|reflexivity].
    apply Qle_bool_iff in E. exfalso. apply (Qlt_not_le _ _ H E).
Qed.
Lemma Qltb_false a b : Qltb a b = false <-> (b <= a)%Q.
Proof.
  unfold Qltb. rewrite negb_false_iff. apply Qle_bool_iff.
Qed.

Lemma parse_T_num q J N :
  ((inject_Z N < q)%Q -> parse_T (TNum q) J N = Err ValueError) /\
  ((q == 0)%Q -> 0 <= N -> parse_T (TNum q) J N = Ok (Qpower 2 J, NoAvg)) /\
  ((q < 1)%Q -> ~ (q == 0)%Q -> parse_T (TNum q) J N = Err ValueError) /\
  ((1 <= q)%Q -> (q <= inject_Z N)%Q -> parse_T (TNum q) J N = Ok (q, Local)).
Proof.
  cbn [parse_T]. repeat split.
  - intros H. apply Qltb_spec in H. now rewrite H.
  - intros H HN. destruct (Qltb (inject_Z N) q) eqn:E.
    + apply Qltb_spec in E. exfalso. rewrite H in E. unfold Qlt in E. cbn in E. lia.
    + apply Qeq_bool_iff in H. now rewrite H.
  - intros H Hn. destruct (Qltb (inject_Z N) q) eqn:E; [reflexivity|].
    destruct (Qeq_bool q 0) eqn:E0; [apply Qeq_bool_iff in E0; contradiction|].
    apply Qltb_spec in H. now rewrite H.
  - intros H1 H2. apply Qltb_false in H2. rewrite H2.
    destruct (Qeq_bool q 0) eqn:E0.
    + apply Qeq_bool_iff in E0. rewrite E0 in H1. exfalso. unfold Qle in H1. cbn in H1. lia.
    + apply Qltb_false in H1. now rewrite H1.
Qed.

Lemma Qpower2_Z J : 0 <= J -> (Qpower 2 J == inject_Z (2 ^ J))%Q.
Proof. intros H. change 2%Q with (inject_Z 2). symmetry. apply Zpower_Qpower. assumption. Qed.

Lemma log2_floor_pow2 J : 0 <= J -> log2_floor (Qpower 2 J) J = J.
Proof.
  intros H. unfold log2_floor. destruct (Qltb (Qpower 2 J) 1); [reflexivity|].
  rewrite (Qpower2_Z J H). rewrite Qfloor_Z. apply Z.log2_pow2. assumption.
Qed.

Lemma log2_floor_spec q J : (1 <= q)%Q ->
  0 <= log2_floor q J /\
  (inject_Z (2 ^ log2_floor q J) <= q)%Q /\ (q < inject_Z (2 ^ (log2_floor q J + 1)))%Q.
Proof.
  intros H. unfold log2_floor. pose proof H as H'. apply Qltb_false in H'. rewrite H'.
  assert (HF : 1 <= Qfloor q).
  { change 1 with (Qfloor 1). apply Qfloor_resp_le. assumption. }
  pose proof (Z.log2_spec (Qfloor q) ltac:(lia)) as [L U].
  split; [apply Z.log2_nonneg|]. split.
  - eapply Qle_trans; [|apply Qfloor_le]. rewrite <- Zle_Qle. assumption.
  - eapply Qlt_le_trans; [apply Qlt_floor|]. rewrite <- Zle_Qle.
    unfold Z.succ in U. lia.
Qed.

(** ** stride *)
Lemma log2_stride_none T J N : log2_stride_of SNone T J N = log2_T_of T J N.
Proof. reflexivity. Qed.

Lemma log2_stride_int s T J N l :
  log2_stride_of (SInt s) T J N = Ok l <->
  0 <= l /\ s = 2 ^ l /\ average_of T J N = Ok Local.
Proof.
  cbn [log2_stride_of]. split.
  - destruct (s <=? 0) eqn:E; [discriminate|].
    destruct (2 ^ Z.log2 s =? s) eqn:E2; cbn [negb]; [|discriminate].
    destruct (average_of T J N) as [a|]; cbn [bind]; [|discriminate].
    destruct a; try discriminate. intros H; injection H; intros <-.
    repeat split; [apply Z.log2_nonneg|lia].
  - intros (Hl & -> & ->). rewrite Z.log2_pow2 by assumption.
    pose proof (pow2_pos l Hl). destruct (2 ^ l <=? 0) eqn:E; [lia|].
    rewrite Z.eqb_refl. reflexivity.
Qed.

Lemma log2_stride_err_value s T J N a e : average_of T J N = Ok a ->
  log2_stride_of (SInt s) T J N = Err e -> e = ValueError.
Proof.
  intros Ha. cbn [log2_stride_of].
  destruct (s <=? 0); [congruence|]. destruct (negb _); [congruence|].
  rewrite Ha. cbn [bind]. destruct a; congruence.
Qed.

(** ** oversampling *)
Definition with_stride (p : params) (s : sval) : params :=
  {| p_J := p_J p; p_shape := p_shape p; p_Q := p_Q p; p_T := p_T p; p_stride := s;
     p_max_order := p_max_order p; p_oversampling := OInt 0 |}.

Lemma oversampling_equiv support p N l k :
  N_input_of (p_shape p) = Ok N ->
  log2_T_of (p_T p) (p_J p) N = Ok l ->
  p_stride p = SNone -> p_oversampling p = OInt k -> 0 < k <= l ->
  build support p = build support (with_stride p (SInt (2 ^ (l - k)))).
Proof.
  intros EN EL ES EO Hk. unfold build. cbn [p_shape p_oversampling p_stride p_T p_J with_stride].
  rewrite EN, ES, EO. cbn [bind]. unfold oversampling_check at 1 2.
  destruct (k <? 0) eqn:E1; [lia|]. destruct (k =? 0) eqn:E2; [lia|].
  rewrite EL. cbn [bind negb Z.ltb Z.eqb Z.compare]. destruct (l - k <? 0) eqn:E3; [lia|].
  reflexivity.
Qed.

Lemma Qpower2_ge1 J : 0 <= J -> (1 <= Qpower 2 J)%Q.
Proof.
  intros H. rewrite (Qpower2_Z J H). change 1%Q with (inject_Z 1). rewrite <- Zle_Qle.
  pose proof (pow2_pos J H). lia.
Qed.

Lemma parse_T_ge1 T J N q a : 0 <= J -> parse_T T J N = Ok (q, a) -> (1 <= q)%Q.
Proof.
  intros HJ E. destruct T as [| | |t]; cbn [parse_T] in E; try discriminate.
  - injection E; intros; subst. now apply Qpower2_ge1.
  - injection E; intros; subst. now apply Qpower2_ge1.
  - destruct (Qltb (inject_Z N) t); [discriminate|].
    destruct (Qeq_bool t 0).
    + injection E; intros; subst. now apply Qpower2_ge1.
    + destruct (Qltb t 1) eqn:E1; [discriminate|]. injection E; intros; subst.
      now apply Qltb_false.
Qed.
