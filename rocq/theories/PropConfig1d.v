(** Properties C01-C08: configuration of Scattering1D. *)
From Coq Require Import ZArith List Bool QArith Qround Qpower Lia.
From Verif Require Import Base Utils1d Utils1dProofs.
Import ListNotations.
Local Open Scope Z_scope.

(** C01.  Whatever the support estimate, [build] succeeds as soon as shape, oversampling and T are
    accepted by their own checks, and the padding plan is legal. *)
Theorem C01_padding_always_legal : forall (support : Z -> Q -> Z) (p : params),
  (forall n t, 0 <= support n t) ->
  forall N, N_input_of (p_shape p) = Ok N -> 1 <= N ->
  (forall stride T,
     oversampling_check (p_oversampling p) (p_stride p) (p_T p) (p_J p) N = Ok stride ->
     T_of (p_T p) (p_J p) N = Ok T -> exists b, build support p = Ok b) /\
  (forall b, build support p = Ok b ->
     b_N b = N /\
     (exists k, 0 <= k /\ b_Npad b = 2 ^ k) /\
     N <= b_Npad b <= 3 * N - 2 /\
     0 <= b_left b /\ 0 <= b_right b /\
     b_left b + N + b_right b = b_Npad b /\
     Z.abs (b_left b - b_right b) <= 1 /\
     b_left b < N /\ b_right b < N).
Proof.
  intros support p Hs N EN HN. split.
  - intros stride T ES ET. exact (build_total support p N stride T EN HN (Hs N T) ES ET).
  - intros b Hb. pose proof (build_inv _ _ _ Hb) as (st & T & l & r & EN' & _).
    assert (b_N b = N) by congruence. subst N.
    pose proof (build_plan support p b Hs Hb HN). intuition lia.
Qed.
Print Assumptions C01_padding_always_legal.
(** Non-vacuity: an odd length, default parameters. *)
Example C01_instance :
  let p := {| p_J := 4; p_shape := ShInt 1001; p_Q := QInt 8; p_T := TNone; p_stride := SNone;
              p_max_order := 2; p_oversampling := OInt 0 |} in
  exists b, build (fun _ _ => 40) p = Ok b /\ b_Npad b = 2048 /\ b_left b = 523 /\ b_right b = 524.
Proof. vm_compute. eexists. repeat split. Qed.

(** C02. *)
Theorem C02_compute_padding_contract : forall N N_input : Z,
  ((exists l r, compute_padding N N_input = Ok (l, r)) <->
     N_input <= N /\ (N - N_input + 1) / 2 < N_input) /\
  (forall e, compute_padding N N_input = Err e -> e = ValueError) /\
  (forall l r, compute_padding N N_input = Ok (l, r) ->
     0 <= l /\ 0 <= r /\ l + N_input + r = N /\ l <= r <= l + 1).
Proof.
  intros N M. split; [exact (compute_padding_iff N M)|].
  split; [exact (compute_padding_err N M)|].
  intros l r H. apply compute_padding_ok in H. intuition.
Qed.
Print Assumptions C02_compute_padding_contract.
Example C02_instance : compute_padding 16 7 = Ok (4, 5) /\ compute_padding 16 5 = Err ValueError
  /\ compute_padding 4 5 = Err ValueError.
Proof. vm_compute. auto. Qed.

(** C03.  Keys are exactly 0..max(log2_T, J); the slice selects exactly the instants of the original
    signal; the bounds are ceilings. *)
Theorem C03_border_indices : forall log2_T J i0 i1 : Z,
  0 <= Z.max log2_T J ->
  let d := compute_border_indices log2_T J i0 i1 in
  (forall j, 0 <= j <= Z.max log2_T J ->
     exists s e, dict_get (fst d) j = Ok s /\ dict_get (snd d) j = Ok e /\
       (forall m, (s <= m < e) <-> (i0 <= m * 2 ^ j < i1)) /\
       (forall m, s <= m <-> i0 <= m * 2 ^ j) /\
       (forall m, e <= m <-> i1 <= m * 2 ^ j)) /\
  (forall j, j < 0 \/ Z.max log2_T J < j ->
     dict_get (fst d) j = Err KeyError /\ dict_get (snd d) j = Err KeyError).
Proof.
  intros log2_T J i0 i1 H0 d. split.
  - intros j Hj. exists (iter_half (Z.to_nat j) i0), (iter_half (Z.to_nat j) i1).
    assert (A : forall m, iter_half (Z.to_nat j) i0 <= m <-> i0 <= m * 2 ^ j).
    { intros m. rewrite iter_half_spec, Z2Nat.id by lia. reflexivity. }
    assert (B : forall m, iter_half (Z.to_nat j) i1 <= m <-> i1 <= m * 2 ^ j).
    { intros m. rewrite iter_half_spec, Z2Nat.id by lia. reflexivity. }
    split; [apply dict_get_border; lia|]. split; [apply dict_get_border; lia|].
    split; [|split; assumption].
    intros m. specialize (A m). specialize (B m). lia.
  - exact (fun j Hj => border_indices_out log2_T J i0 i1 j H0 Hj).
Qed.
Print Assumptions C03_border_indices.
Example C03_instance : compute_border_indices 3 2 13 113 = ([13; 7; 4; 2], [113; 57; 29; 15]).
Proof. vm_compute. auto. Qed.

(** C05.  The table of [T] (and [F]: the same function with another length). *)
Theorem C05_T_table : forall (J N : Z), 1 <= N ->
  parse_T TNone J N = Ok (Qpower 2 J, Local) /\
  parse_T TGlobal J N = Ok (Qpower 2 J, Global) /\
  (forall q : Q,
     ((q == 0)%Q /\ parse_T (TNum q) J N = Ok (Qpower 2 J, NoAvg)) \/
     ((1 <= q)%Q /\ (q <= inject_Z N)%Q /\ parse_T (TNum q) J N = Ok (q, Local)) \/
     (~ (q == 0)%Q /\ ((q < 1)%Q \/ (inject_Z N < q)%Q) /\ parse_T (TNum q) J N = Err ValueError)) /\
  (0 <= J -> (Qpower 2 J == inject_Z (2 ^ J))%Q).
Proof.
  intros J N HN. split; [reflexivity|]. split; [reflexivity|]. split; [|exact (Qpower2_Z J)].
  intros q. destruct (parse_T_num q J N) as (A & B & C & D).
  destruct (Qeq_dec q 0) as [E|E].
  - left. split; [assumption|]. apply B; [assumption|lia].
  - destruct (Qlt_le_dec q 1) as [H1|H1].
    + right; right. split; [assumption|]. split; [left; assumption|]. apply C; assumption.
    + destruct (Qlt_le_dec (inject_Z N) q) as [H2|H2].
      * right; right. split; [assumption|]. split; [right; assumption|]. apply A; assumption.
      * right; left. split; [assumption|]. split; [assumption|]. apply D; assumption.
Qed.
Print Assumptions C05_T_table.
Example C05_instance : parse_T (TNum (5#2)) 4 10 = Ok ((5#2)%Q, Local)
  /\ parse_T (TNum (1#2)) 4 10 = Err ValueError /\ parse_T (TNum 11) 4 10 = Err ValueError.
Proof. vm_compute. auto. Qed.

(** C06. *)
Theorem C06_Q_table : forall v : qval,
  (forall q1 q2, Q_of v = Ok [q1; q2] <->
     (qnum_val q1 >= 1)%Q /\ (qnum_val q2 >= 1)%Q /\
     ((exists z, v = QInt z /\ q1 = QI z /\ q2 = QI 1) \/
      (v = QTuple [q1] /\ q2 = QI 1) \/
      v = QTuple [q1; q2])) /\
  (forall l, Q_of v = Ok l -> length l = 2%nat) /\
  (forall x, In x (qval_entries v) -> (x < 1)%Q -> Q_of v = Err ValueError) /\
  (forall l, (forall x, In x (qval_entries v) -> (1 <= x)%Q) ->
     v = QTuple l -> (length l <> 1 -> length l <> 2 -> Q_of v = Err NotImplementedError)%nat) /\
  (forall q l, v = QFloat q \/ v = QList l -> Q_of v = Err ValueError).
Proof.
  assert (G : forall z : Z, Qltb (inject_Z z) 1 = false <-> (inject_Z z >= 1)%Q)
    by (intros z; apply Qltb_false).
  intros v. repeat split.
  - unfold Q_of in H. destruct (existsb _ _) eqn:E; [discriminate|].
    destruct v as [z|q|l|l]; try discriminate.
    + injection H; intros; subst. cbn in E. rewrite orb_false_r in E. apply Qltb_false. exact E.
    + destruct l as [|a [|b [|c l]]]; try discriminate; injection H; intros; subst; cbn in E;
        rewrite ?orb_false_iff in E; apply Qltb_false; apply E.
  - unfold Q_of in H. destruct (existsb _ _) eqn:E; [discriminate|].
    destruct v as [z|q|l|l]; try discriminate.
    + injection H; intros; subst. cbn. unfold Qle; cbn; lia.
    + destruct l as [|a [|b [|c l]]]; try discriminate; injection H; intros; subst; cbn in E;
        rewrite ?orb_false_iff in E.
      * cbn. unfold Qle; cbn; lia.
      * apply Qltb_false; apply E.
  - unfold Q_of in H. destruct (existsb _ _) eqn:E; [discriminate|].
    destruct v as [z|q|l|l]; try discriminate.
    + injection H; intros; subst. left. eauto.
    + destruct l as [|a [|b [|c l]]]; try discriminate; injection H; intros; subst; auto.
  - intros (H1 & H2 & H). unfold Q_of. apply Qltb_false in H1, H2.
    destruct H as [(z & -> & -> & ->)|[(-> & ->)| -> ]]; cbn [qval_entries map existsb];
      cbn [qnum_val] in *; rewrite ?H1, ?H2; reflexivity.
  - intros l H. unfold Q_of in H. destruct (existsb _ _); [discriminate|].
    destruct v as [z|q|[|a [|b [|c k]]]|k]; try discriminate; injection H; intros; subst; reflexivity.
  - intros x Hx H1. unfold Q_of. replace (existsb _ _) with true; [reflexivity|].
    symmetry. apply existsb_exists. exists x. split; [assumption|]. now apply Qltb_spec.
  - intros l Hall -> L1 L2. unfold Q_of. replace (existsb _ _) with false.
    + destruct l as [|a [|b [|c k]]]; cbn in L1, L2; try reflexivity; lia.
    + symmetry. apply not_true_iff_false. rewrite existsb_exists. intros (x & Hx & E).
      apply Qltb_spec in E. apply Hall in Hx. apply (Qlt_not_le _ _ E Hx).
  - intros q l [-> | ->]; unfold Q_of; destruct (existsb _ _); reflexivity.
Qed.
Print Assumptions C06_Q_table.
Example C06_instance : Q_of (QInt 8) = Ok [QI 8; QI 1] /\ Q_of (QTuple [QI 8; QI 2]) = Ok [QI 8; QI 2]
  /\ Q_of (QTuple [QF (1#2)]) = Err ValueError /\ Q_of (QTuple [QI 1; QI 1; QI 1]) = Err NotImplementedError.
Proof. vm_compute. auto. Qed.

(** C07.  [average_of T J N = Ok a] says that T itself is valid (otherwise every attribute raises). *)
Theorem C07_stride : forall (stride : sval) (T : tval) (J N : Z) (a : avg),
  0 <= J -> average_of T J N = Ok a ->
  (stride = SNone ->
     exists l q, stride_of stride T J N = Ok (PInt (2 ^ l)) /\ T_of T J N = Ok q /\ 0 <= l /\
       (inject_Z (2 ^ l) <= q)%Q /\ (q < inject_Z (2 ^ (l + 1)))%Q) /\
  (forall s, stride = SInt s ->
     ((a = Local /\ exists l, 0 <= l /\ s = 2 ^ l) <-> stride_of stride T J N = Ok (PInt s)) /\
     (stride_of stride T J N <> Ok (PInt s) -> stride_of stride T J N = Err ValueError)) /\
  (forall q, stride = SFloat q \/ stride = SOther -> stride_of stride T J N = Err ValueError).
Proof.
  intros stride T J N a HJ Ha. repeat split.
  - intros ->. unfold average_of in Ha. unfold stride_of, log2_stride_of, log2_T_of, T_of.
    destruct (parse_T T J N) as [[q b]|] eqn:E; cbn [bind fst snd] in *; [|discriminate].
    pose proof (parse_T_ge1 T J N q b HJ E) as Hq.
    destruct (log2_floor_spec q J Hq) as (A & B & C).
    exists (log2_floor q J), q. repeat split; try assumption.
    unfold pow2. destruct (log2_floor q J <? 0) eqn:E2; [apply Z.ltb_lt in E2; lia|]. reflexivity.
  - intros (-> & l & Hl & Es). subst stride. unfold stride_of.
    rewrite (proj2 (log2_stride_int s T J N l)) by auto.
    cbn [bind]. unfold pow2. destruct (l <? 0) eqn:E; [apply Z.ltb_lt in E; lia|].
    now rewrite Es.
  - subst stride. unfold stride_of in H0. destruct (log2_stride_of _ _ _ _) as [l|] eqn:E; [|discriminate].
    apply log2_stride_int in E. destruct E as (_ & _ & E). congruence.
  - subst stride. unfold stride_of in H0. destruct (log2_stride_of _ _ _ _) as [l|] eqn:E; [|discriminate].
    apply log2_stride_int in E. destruct E as (Hl & E & _). eauto.
  - intros Hne. subst stride. unfold stride_of in *.
    destruct (log2_stride_of _ _ _ _) as [l|e] eqn:E; cbn [bind] in *.
    + exfalso. apply Hne. apply log2_stride_int in E. destruct E as (Hl & E & _).
      unfold pow2. destruct (l <? 0) eqn:E2; [apply Z.ltb_lt in E2; lia|]. now rewrite <- E.
    + f_equal. exact (log2_stride_err_value s T J N a e Ha E).
  - intros q [-> | ->]; reflexivity.
Qed.
Print Assumptions C07_stride.
Example C07_instance : stride_of (SInt 8) TNone 4 100 = Ok (PInt 8)
  /\ stride_of (SInt 12) TNone 4 100 = Err ValueError /\ stride_of (SInt 8) TGlobal 4 100 = Err ValueError
  /\ stride_of SNone (TNum 50) 4 100 = Ok (PInt 32).
Proof. vm_compute. auto. Qed.

(** C08, the part that holds: [oversampling=k] without stride is [stride=2**(log2_T-k)].
    Missing from the full statement: passing both (see the refutation). *)
Theorem C08_oversampling_equivalent_partial : forall (support : Z -> Q -> Z) (p : params) (N l k : Z),
  N_input_of (p_shape p) = Ok N ->
  log2_T_of (p_T p) (p_J p) N = Ok l ->
  p_stride p = SNone -> p_oversampling p = OInt k -> 0 < k <= l ->
  build support p =
  build support {| p_J := p_J p; p_shape := p_shape p; p_Q := p_Q p; p_T := p_T p;
                   p_stride := SInt (2 ^ (l - k)); p_max_order := p_max_order p;
                   p_oversampling := OInt 0 |}
  /\ forall b, build support p = Ok b -> b_stride b = SInt (2 ^ (l - k)).
Proof.
  intros support p N l k EN EL ES EO Hk.
  pose proof (oversampling_equiv support p N l k EN EL ES EO Hk) as E. split; [exact E|].
  intros b Hb. rewrite E in Hb.
  destruct (build_inv _ _ _ Hb) as (st & T & a & c & _ & EO' & _ & _ & ->).
  cbn [b_stride]. unfold with_stride in EO'. cbn in EO'. congruence.
Qed.
Print Assumptions C08_oversampling_equivalent_partial.
Example C08_instance : exists b,
  let p k st := {| p_J := 6; p_shape := ShInt 100; p_Q := QInt 8; p_T := TNone; p_stride := st; p_max_order := 2; p_oversampling := OInt k |} in
  log2_T_of TNone 6 100 = Ok 6 /\ build (fun _ _ => 30) (p 2 SNone) = Ok b /\ b_stride b = SInt 16 /\
  build (fun _ _ => 30) (p 0 (SInt 16)) = Ok b /\ build (fun _ _ => 30) (p 0 SNone) <> Ok b.
Proof. vm_compute. eexists. repeat split. discriminate. Qed.

(** C08, refutation of the rest: giving the documented equivalent stride together with oversampling is
    rejected, while half of that stride is accepted and silently replaced. *)
Theorem C08_both_refuted : exists (p q : params) (b : built),
  p_oversampling p = OInt 1 /\ p_stride p = SInt 8 /\
  log2_T_of (p_T p) (p_J p) 64 = Ok 4 /\ p_shape p = ShInt 64 /\
  build (fun _ _ => 10) p = Err ValueError /\
  q = {| p_J := p_J p; p_shape := p_shape p; p_Q := p_Q p; p_T := p_T p; p_stride := SInt 4;
         p_max_order := p_max_order p; p_oversampling := OInt 1 |} /\
  build (fun _ _ => 10) q = Ok b /\ b_stride b = SInt 8.
Proof.
  exists {| p_J := 4; p_shape := ShInt 64; p_Q := QInt 1; p_T := TNone; p_stride := SInt 8;
            p_max_order := 2; p_oversampling := OInt 1 |}.
  vm_compute. eexists. eexists. repeat split.
Qed.
Print Assumptions C08_both_refuted.
