(** Two signals that are close, and a signal read backwards: what the steps of the 1-D transform do to them. *)
From Coq Require Import String Reals ZArith QArith List Bool Lia Lra Permutation.
From Coquelicot Require Import Complex.
From Verif Require Import Base BaseProofs NdArray Backend Core1d Utils1d Utils1dProofs Frontend1d Spec1d Core1dProofs
  Frontend1dProofs NdProofs Rows1d FrontRows Factory1d FactoryProofs ComplexOps FilterBank1d FilterBank1dProofs Construct1d
  Shape1d PropFilters1d PropShapes1d Dft Conv1d Value1d Tabulated1d PropNumerics1d Invariance1d Norm1d.
Import ListNotations.
Local Open Scope Z_scope.
Local Open Scope res_scope.

(** ** Closeness *)
(** [x] and [y] have the same length and differ by at most [B] at every instant. *)
Definition close (B : R) (x y : list C) : Prop :=
  List.length y = List.length x /\ forall u, (u < List.length x)%nat -> (Cmod (at_ x u - at_ y u)%C <= B)%R.

Lemma Cmod_sub_abs a b : (Rabs (Cmod a - Cmod b) <= Cmod (a - b)%C)%R.
Proof.
  pose proof (Cmod_triangle (a - b)%C b) as H1. pose proof (Cmod_triangle (b - a)%C a) as H2.
  replace (a - b + b)%C with a in H1 by ring. replace (b - a + a)%C with b in H2 by ring.
  assert (E : Cmod (b - a)%C = Cmod (a - b)%C) by (replace (b - a)%C with (- (a - b))%C by ring; apply Cmod_opp).
  apply Rabs_le. lra.
Qed.
Lemma Re_sub_abs a b : (Rabs (Re a - Re b) <= Cmod (a - b)%C)%R.
Proof. replace (Re a - Re b)%R with (Re (a - b)%C) by (destruct a, b; cbn; ring). eapply Rle_trans; [|apply Rmax_Cmod]. apply Rmax_l. Qed.

Lemma cconv_close x y h t B : (0 < List.length x)%nat -> List.length h = List.length x -> close B x y ->
  (Cmod (cconv x h t - cconv y h t)%C <= B * l1 h)%R.
Proof.
  intros Hx Hh [Hl Hc]. set (d := map (fun u => at_ x u - at_ y u)%C (seq 0 (List.length x))).
  assert (Ld : List.length d = List.length x) by (unfold d; now rewrite map_length, seq_length).
  assert (Ad : forall u, (u < List.length x)%nat -> at_ d u = (at_ x u - at_ y u)%C) by (intros u Hu; unfold d; now rewrite at_map_seq).
  replace (cconv x h t - cconv y h t)%C with (cconv d h t).
  - apply cconv_bound; rewrite ?Ld; try assumption. intros u Hu. rewrite Ad by exact Hu. now apply Hc.
  - unfold cconv. rewrite Ld, Hl.
    assert (E : forall n f g, (csum n f - csum n g)%C = csum n (fun i => f i - g i)%C).
    { intros n f g. induction n as [|n IH]; cbn [csum]; [ring|]. rewrite <- IH. ring. }
    rewrite E. apply csum_ext. intros m Hm. rewrite Ad by exact Hm. ring.
Qed.
Lemma close_envelope B x y w k : (0 < List.length x)%nat -> List.length w = List.length x -> close B x y ->
  close (B * l1 (idft w)) (sampled_envelope x w k) (sampled_envelope y w k).
Proof.
  intros Hx Hw Hc. pose proof (proj1 Hc) as Hl. split; [now rewrite !sampled_envelope_length, Hl|]. rewrite sampled_envelope_length. intros u Hu.
  unfold sampled_envelope. rewrite !at_map_seq by (rewrite ?Hl; exact Hu). rewrite <- RtoC_minus, Cmod_R.
  eapply Rle_trans; [apply Cmod_sub_abs|]. apply cconv_close; rewrite ?idft_length; assumption.
Qed.
Lemma close_lowpass B x y w k : (0 < List.length x)%nat -> List.length w = List.length x -> close B x y ->
  close (B * l1 (idft w)) (sampled_lowpass x w k) (sampled_lowpass y w k).
Proof.
  intros Hx Hw Hc. pose proof (proj1 Hc) as Hl. split; [now rewrite !sampled_lowpass_length, Hl|]. rewrite sampled_lowpass_length. intros u Hu.
  unfold sampled_lowpass. rewrite !at_map_seq by (rewrite ?Hl; exact Hu). rewrite <- RtoC_minus, Cmod_R.
  eapply Rle_trans; [apply Re_sub_abs|]. apply cconv_close; rewrite ?idft_length; assumption.
Qed.
Lemma close_pad B l r n x y : (l < n)%nat -> (r < n)%nat -> List.length x = n -> close B x y ->
  close B (pad_reflect_row complex_ops l r n x) (pad_reflect_row complex_ops l r n y).
Proof.
  intros Hl Hr Hn [Hlen Hc]. split; [now rewrite !pad_row_length|]. rewrite pad_row_length. intros u Hu. rewrite !at_pad by exact Hu.
  apply Hc. rewrite Hn. now apply (reflect_lt n l r).
Qed.
Lemma close_sum B x y : close B x y -> (Cmod (csum (List.length x) (at_ x) - csum (List.length y) (at_ y))%C <= INR (List.length x) * B)%R.
Proof.
  intros [Hl Hc]. rewrite Hl. revert Hc. generalize (List.length x) as n. induction n as [|n IH]; intros Hc.
  - cbn [csum]. replace (RtoC 0 - RtoC 0)%C with (RtoC 0) by ring. rewrite Cmod_0. cbn. lra.
  - cbn [csum]. replace (csum n (at_ x) + at_ x n - (csum n (at_ y) + at_ y n))%C with ((csum n (at_ x) - csum n (at_ y)) + (at_ x n - at_ y n))%C by ring.
    eapply Rle_trans; [apply Cmod_triangle|]. rewrite S_INR. specialize (IH ltac:(intros; apply Hc; lia)). specialize (Hc n ltac:(lia)). lra.
Qed.

(** ** Reading backwards *)
(** Circular reversal about instant 0: the sample at [n] is the one that was at [-n]. *)
Definition reversed (x : list C) : list C :=
  map (fun n => at_ x (Z.to_nat ((- Z.of_nat n) mod Z.of_nat (List.length x)))) (seq 0 (List.length x)).
Lemma reversed_length x : List.length (reversed x) = List.length x.
Proof. unfold reversed. now rewrite map_length, seq_length. Qed.
Lemma at_reversed x n : (n < List.length x)%nat -> at_ (reversed x) n = at_ x (Z.to_nat ((- Z.of_nat n) mod Z.of_nat (List.length x))).
Proof. intros H. unfold reversed. now rewrite at_map_seq. Qed.

Definition all_real (x : list C) : Prop := forall n, Im (at_ x n) = 0%R.
Lemma conj_real z : Im z = 0%R -> Cconj z = z.
Proof. destruct z as [a b]. cbn. intros ->. unfold Cconj. cbn. now rewrite Ropp_0. Qed.
Lemma all_real_map (g : nat -> R) n : all_real (map (fun u => RtoC (g u)) (seq 0 n)).
Proof.
  intros i. destruct (Nat.lt_ge_cases i n) as [H|H]; [now rewrite at_map_seq|]. rewrite at_over by (rewrite map_length, seq_length; exact H). reflexivity.
Qed.
Lemma envelope_real x w k : all_real (sampled_envelope x w k).
Proof. apply (all_real_map (fun u => Cmod (cconv x (idft w) (Z.of_nat (k * u))))). Qed.
Lemma all_real_reversed x : all_real x -> all_real (reversed x).
Proof.
  intros H n. destruct (Nat.lt_ge_cases n (List.length x)) as [Hn|Hn]; [rewrite at_reversed by exact Hn; apply H|].
  rewrite at_over by (rewrite reversed_length; exact Hn). reflexivity.
Qed.

Lemma Cconj_mult a b : Cconj (a * b)%C = (Cconj a * Cconj b)%C.
Proof. destruct a as [a1 a2], b as [b1 b2]. unfold Cconj, Cmult. cbn [fst snd]. f_equal; ring. Qed.
Lemma Cmod_conj a : Cmod (Cconj a) = Cmod a.
Proof. destruct a as [a1 a2]. unfold Cmod, Cconj. cbn [fst snd]. f_equal. ring. Qed.
(** A real frequency response: the impulse response is Hermitian. *)
Lemma idft_at_conj N w n : (0 < N)%nat -> (forall k, (k < N)%nat -> Im (w k) = 0%R) -> idft_at N w (- n) = Cconj (idft_at N w n).
Proof.
  intros HN Hw. unfold idft_at. unfold Cdiv. rewrite Cconj_mult, csum_conj. f_equal.
  - apply csum_ext. intros k Hk. rewrite Cconj_mult, (conj_real (w k)) by now apply Hw. rewrite <- root_opp by exact HN. do 2 f_equal. lia.
  - symmetry. apply conj_real. rewrite <- RtoC_inv; [reflexivity|]. apply Rgt_not_eq, lt_0_INR. exact HN.
Qed.
Lemma cconv_reversed x w n : (0 < List.length x)%nat -> List.length w = List.length x -> all_real x -> all_real w ->
  cconv (reversed x) (idft w) n = Cconj (cconv x (idft w) (- n)).
Proof.
  intros Hx Hw Rx Rw. unfold cconv. rewrite reversed_length, csum_conj. set (N := List.length x) in *.
  set (g := fun a : Z => (at_ x (Z.to_nat (a mod Z.of_nat N)) * idft_at N (at_ w) (n + a))%C).
  assert (Hg : forall a b, (a mod Z.of_nat N = b mod Z.of_nat N)%Z -> g a = g b).
  { intros a b E. unfold g. rewrite E. f_equal. rewrite <- (idft_at_mod N Hx (at_ w) (n + a)), <- (idft_at_mod N Hx (at_ w) (n + b)).
    rewrite (Zplus_mod n a), E, <- Zplus_mod. reflexivity. }
  transitivity (csum N (fun m => g (- Z.of_nat m))).
  { apply csum_ext. intros m Hm. rewrite at_reversed by exact Hm. fold N. unfold g. f_equal.
    rewrite <- Hw. rewrite at_idft_mod by lia. f_equal. }
  transitivity (csum N (fun m => g (Z.of_nat m))).
  { (* reversal of a periodic sum *)
    rewrite <- (csum_shift N Hx g (- (Z.of_nat N - 1)) Hg). clear - Hx.
    assert (R : forall k (f : nat -> C), csum k f = csum k (fun m => f (k - 1 - m)%nat)).
    { induction k as [|k IH]; intros f; [reflexivity|]. symmetry. rewrite csum_first. rewrite (csum_ext k _ (fun m => f (k - 1 - m)%nat)) by (intros; apply f_equal; lia).
      rewrite <- IH. cbn [csum]. replace (S k - 1 - 0)%nat with k by lia. ring. }
    rewrite (R N (fun i => g (Z.of_nat i + - (Z.of_nat N - 1)))). apply csum_ext. intros m Hm. f_equal. lia. }
  apply csum_ext. intros m Hm. unfold g. rewrite Cconj_mult, (conj_real (at_ x m)) by apply Rx.
  rewrite Z.mod_small by lia. rewrite Nat2Z.id. f_equal. rewrite <- Hw. rewrite at_idft_mod by lia.
  rewrite <- idft_at_conj by (try lia; intros; apply Rw). f_equal. lia.
Qed.
Lemma reversed_envelope x w k : (0 < k)%nat -> Nat.divide k (List.length x) -> (0 < List.length x)%nat -> List.length w = List.length x ->
  all_real x -> all_real w -> sampled_envelope (reversed x) w k = reversed (sampled_envelope x w k).
Proof.
  intros Hk [m Hm] Hx Hw Rx Rw. assert (Em : (List.length x / k = m)%nat) by (rewrite Hm; apply Nat.div_mul; lia).
  apply list_ext; [now rewrite reversed_length, !sampled_envelope_length, reversed_length|].
  rewrite sampled_envelope_length, reversed_length. intros u Hu.
  rewrite at_reversed by (rewrite sampled_envelope_length; exact Hu). rewrite sampled_envelope_length, Em in *.
  pose proof (Z.mod_pos_bound (- Z.of_nat u) (Z.of_nat m) ltac:(lia)) as B.
  unfold sampled_envelope. rewrite at_map_seq by (rewrite reversed_length, Em; exact Hu). rewrite at_map_seq by (rewrite Em; lia).
  rewrite cconv_reversed by assumption. rewrite Cmod_conj. f_equal. f_equal. apply cconv_congr; [|exact Hx].
  rewrite !Nat2Z.inj_mul, Z2Nat.id by lia. rewrite Hm, Nat2Z.inj_mul, (Z.mul_comm (Z.of_nat m)).
  rewrite <- Z.mul_opp_r, !Zmult_mod_distr_l, Z.mod_mod by lia. reflexivity.
Qed.
Lemma reversed_lowpass x w k : (0 < k)%nat -> Nat.divide k (List.length x) -> (0 < List.length x)%nat -> List.length w = List.length x ->
  all_real x -> all_real w -> sampled_lowpass (reversed x) w k = reversed (sampled_lowpass x w k).
Proof.
  intros Hk [m Hm] Hx Hw Rx Rw. assert (Em : (List.length x / k = m)%nat) by (rewrite Hm; apply Nat.div_mul; lia).
  apply list_ext; [now rewrite reversed_length, !sampled_lowpass_length, reversed_length|].
  rewrite sampled_lowpass_length, reversed_length. intros u Hu.
  rewrite at_reversed by (rewrite sampled_lowpass_length; exact Hu). rewrite sampled_lowpass_length, Em in *.
  pose proof (Z.mod_pos_bound (- Z.of_nat u) (Z.of_nat m) ltac:(lia)) as B.
  unfold sampled_lowpass. rewrite at_map_seq by (rewrite reversed_length, Em; exact Hu). rewrite at_map_seq by (rewrite Em; lia).
  rewrite cconv_reversed by assumption. replace (Re (Cconj (cconv x (idft w) (- Z.of_nat (k * u))))) with (Re (cconv x (idft w) (- Z.of_nat (k * u)))) by reflexivity.
  f_equal. f_equal. apply cconv_congr; [|exact Hx].
  rewrite !Nat2Z.inj_mul, Z2Nat.id by lia. rewrite Hm, Nat2Z.inj_mul, (Z.mul_comm (Z.of_nat m)).
  rewrite <- Z.mul_opp_r, !Zmult_mod_distr_l, Z.mod_mod by lia. reflexivity.
Qed.

(** ** Coefficients of one padded signal *)
Section Values.
Context {P : Type}.
Notation filter := (Core1d.filter (nd C) P).
Variables (phi : filter) (psi1s psi2s : list filter) (two : bool) (N : nat) (ls : Z) (al : bool).
Hypothesis (Ha : adm phi psi1s psi2s two N ls al).
Notation val := (value complex_ops phi psi1s psi2s N ls al).

(** The product of the l1 norms of the filters applied along a path. *)
Definition gain (key : list nat) : R :=
  let g f k := l1 (idft (lev f k)) in
  match key with
  | [] => if al then g phi 0 else 1%R
  | [n1] => match nth_error psi1s n1 with
            | Some f1 => (g f1 0%Z * if al then g phi (kk ls al f1) else 1)%R
            | None => 0%R end
  | n1 :: n2 :: _ => match nth_error psi1s n1, nth_error psi2s n2 with
                | Some f1, Some f2 => (g f1 0%Z * g f2 (kk ls al f1) * if al then g phi (kk ls al f2) else 1)%R
                | _, _ => 0%R end
  end.

Lemma level_length (f : filter) k n : level_ok f k n -> List.length (lev f k) = n.
Proof. intros (w & Ew & _ & _ & El). unfold lev. now rewrite Ew. Qed.

(** The filters met along a path: their levels exist and have the length of the signal they are applied to. *)
Lemma value_close B x y key : List.length x = N -> close B x y -> valid_key psi1s psi2s two key ->
  close (B * gain key) (val key x) (val key y).
Proof.
  intros Hx Hc Hk. pose proof (proj1 Hc) as Hl. assert (Hy : List.length y = N) by congruence.
  pose proof (adm_N _ _ _ _ _ _ _ Ha) as HN.
  destruct al eqn:Eal.
  - pose proof (value_local _ _ _ _ _ _ _ Ha _ Hx _ eq_refl Hk) as V.
    pose proof (value_local _ _ _ _ _ _ _ Ha _ Hy _ eq_refl Hk) as V'.
    destruct (adm_phi _ _ _ _ _ _ _ Ha eq_refl) as [Dl Hphi]. pose proof (level_length _ _ _ Hphi) as Lphi.
    destruct Hk as [|n1 f1 E1|n1 n2 f1 f2 H2 E1 E2 Hj].
    + rewrite V, V'. unfold gain. rewrite Eal. apply close_lowpass; [lia|congruence|exact Hc].
    + rewrite (V f1 E1), (V' f1 E1). unfold gain. rewrite Eal. rewrite E1. unfold kk. cbv zeta.
      destruct (env1_spec _ _ _ _ _ _ _ Ha x Hx n1 f1 E1) as (S1 & L1 & K1 & D1 & B1 & P1).
      destruct (adm_psi1 _ _ _ _ _ _ _ Ha f1 (nth_error_In _ _ E1)) as (G1 & G2 & G3 & G4). specialize (G4 eq_refl).
      apply level_length in G2, G4. rewrite S1 in L1. unfold kk in L1, P1, G4.
      rewrite <- Rmult_assoc. apply close_lowpass; [rewrite L1; exact P1|congruence|]. apply close_envelope; [lia|congruence|exact Hc].
    + rewrite (V f1 f2 E1 E2), (V' f1 f2 E1 E2). unfold gain. rewrite Eal. rewrite E1, E2. unfold kk. cbv zeta.
      destruct (env1_spec _ _ _ _ _ _ _ Ha x Hx n1 f1 E1) as (S1 & L1 & K1 & D1 & B1 & P1).
      destruct (env2_spec _ _ _ _ _ _ _ Ha x Hx n1 n2 f1 f2 H2 E1 E2 Hj) as (S2 & L2 & K2 & D2 & B2 & P2).
      destruct (adm_psi1 _ _ _ _ _ _ _ Ha f1 (nth_error_In _ _ E1)) as (_ & G2 & _ & _).
      destruct (adm_psi2 _ _ _ _ _ _ _ Ha H2 f1 f2 (nth_error_In _ _ E1) (nth_error_In _ _ E2) Hj) as (Q1 & _ & Q3). specialize (Q3 eq_refl).
      apply level_length in G2, Q1, Q3. rewrite S1 in L1. rewrite S2 in L2. unfold kk in L1, P1, Q1, Q3, L2, P2.
      rewrite <- !Rmult_assoc. apply close_lowpass; [rewrite L2; exact P2|congruence|].
      apply close_envelope; [rewrite L1; exact P1|congruence|]. apply close_envelope; [lia|congruence|exact Hc].
  - pose proof (value_plain _ _ _ _ _ _ _ Ha _ Hx _ eq_refl Hk) as V.
    pose proof (value_plain _ _ _ _ _ _ _ Ha _ Hy _ eq_refl Hk) as V'.
    destruct Hk as [|n1 f1 E1|n1 n2 f1 f2 H2 E1 E2 Hj].
    + rewrite V, V'. unfold gain. rewrite Eal. now rewrite Rmult_1_r.
    + rewrite (V f1 E1), (V' f1 E1). unfold gain. rewrite Eal. rewrite E1. rewrite Rmult_1_r.
      destruct (adm_psi1 _ _ _ _ _ _ _ Ha f1 (nth_error_In _ _ E1)) as (_ & G2 & _). apply level_length in G2.
      apply close_envelope; [lia|congruence|exact Hc].
    + rewrite (V f1 f2 E1 E2), (V' f1 f2 E1 E2). unfold gain. rewrite Eal. rewrite E1, E2. unfold kk. rewrite Rmult_1_r, <- Rmult_assoc.
      destruct (env1_spec _ _ _ _ _ _ _ Ha x Hx n1 f1 E1) as (S1 & L1 & K1 & D1 & B1 & P1).
      destruct (adm_psi1 _ _ _ _ _ _ _ Ha f1 (nth_error_In _ _ E1)) as (_ & G2 & _ & _).
      destruct (adm_psi2 _ _ _ _ _ _ _ Ha H2 f1 f2 (nth_error_In _ _ E1) (nth_error_In _ _ E2) Hj) as (Q1 & _ & _).
      apply level_length in G2, Q1. rewrite S1 in L1. unfold kk in L1, P1, Q1.
      apply close_envelope; [rewrite L1; exact P1|congruence|]. apply close_envelope; [lia|congruence|exact Hc].
Qed.

Lemma value_reversed row key : al = true -> List.length row = N -> valid_key psi1s psi2s two key -> all_real row ->
  (forall (f : filter) k n, (f = phi \/ In f psi1s \/ In f psi2s) -> level_ok f k n -> all_real (lev f k)) ->
  val key (reversed row) = reversed (val key row).
Proof.
  intros Hal Hrow Hk Rr HF. assert (Hrow' : List.length (reversed row) = N) by now rewrite reversed_length.
  pose proof (value_local _ _ _ _ _ _ _ Ha _ Hrow _ Hal Hk) as V.
  pose proof (value_local _ _ _ _ _ _ _ Ha _ Hrow' _ Hal Hk) as V'.
  pose proof (adm_N _ _ _ _ _ _ _ Ha) as HN. pose proof (adm_ls _ _ _ _ _ _ _ Ha) as Hls.
  destruct (adm_phi _ _ _ _ _ _ _ Ha Hal) as [Dl Hphi].
  assert (Ek : forall f : filter, kk ls al f = Z.min (f_j f) ls) by (intros; unfold kk; now rewrite Hal).
  destruct Hk as [|n1 f1 E1|n1 n2 f1 f2 H2 E1 E2 Hj].
  - rewrite V, V'. apply reversed_lowpass; try assumption; [apply p2_pos|now rewrite Hrow|lia| |].
    + rewrite (level_length _ _ _ Hphi). congruence.
    + eapply HF; [left; reflexivity|exact Hphi].
  - rewrite (V f1 E1), (V' f1 E1). cbv zeta. rewrite <- Ek.
    destruct (env1_spec _ _ _ _ _ _ _ Ha row Hrow n1 f1 E1) as (S1 & L1 & K1 & D1 & B1 & P1). specialize (B1 Hal).
    destruct (adm_psi1 _ _ _ _ _ _ _ Ha f1 (nth_error_In _ _ E1)) as (G1 & G2 & G3 & G4). specialize (G4 Hal).
    rewrite S1 in L1. destruct (p2_divide _ _ _ (conj K1 B1) Dl) as (_ & D12 & Q12).
    rewrite reversed_envelope; try assumption; [|apply p2_pos|now rewrite Hrow|lia|rewrite (level_length _ _ _ G2); congruence|].
    2:{ eapply HF; [right; left; eapply nth_error_In; exact E1|exact G2]. }
    apply reversed_lowpass; [apply p2_pos|now rewrite L1|now rewrite L1|rewrite (level_length _ _ _ G4); congruence|apply envelope_real|].
    eapply HF; [left; reflexivity|exact G4].
  - rewrite (V f1 f2 E1 E2), (V' f1 f2 E1 E2). cbv zeta. rewrite <- !Ek.
    destruct (env1_spec _ _ _ _ _ _ _ Ha row Hrow n1 f1 E1) as (S1 & L1 & K1 & D1 & B1 & P1). specialize (B1 Hal).
    destruct (env2_spec _ _ _ _ _ _ _ Ha row Hrow n1 n2 f1 f2 H2 E1 E2 Hj) as (S2 & L2 & K2 & D2 & B2 & P2). specialize (B2 Hal).
    destruct (adm_psi1 _ _ _ _ _ _ _ Ha f1 (nth_error_In _ _ E1)) as (_ & G2 & _ & _).
    destruct (adm_psi2 _ _ _ _ _ _ _ Ha H2 f1 f2 (nth_error_In _ _ E1) (nth_error_In _ _ E2) Hj) as (Q1 & _ & Q3). specialize (Q3 Hal).
    rewrite S1 in L1. rewrite S2 in L2.
    destruct (p2_divide (kk ls al f1) (kk ls al f2) N ltac:(lia) D2) as (_ & D12 & Q12).
    destruct (p2_divide (kk ls al f2) ls N ltac:(lia) Dl) as (_ & D23 & Q23).
    rewrite reversed_envelope; try assumption; [|apply p2_pos|now rewrite Hrow|lia|rewrite (level_length _ _ _ G2); congruence|].
    2:{ eapply HF; [right; left; eapply nth_error_In; exact E1|exact G2]. }
    rewrite reversed_envelope; [|apply p2_pos|now rewrite L1|now rewrite L1|rewrite (level_length _ _ _ Q1); congruence|apply envelope_real|].
    2:{ eapply HF; [right; right; eapply nth_error_In; exact E2|exact Q1]. }
    apply reversed_lowpass; [apply p2_pos|now rewrite L2|now rewrite L2|rewrite (level_length _ _ _ Q3); congruence|apply envelope_real|].
    eapply HF; [left; reflexivity|exact Q3].
Qed.
End Values.

(** The stored filters are real in the Fourier domain, at every level. *)
Lemma stored_real support p out s N f k n : constructed support p out s N -> stored s f -> level_ok f k n -> all_real (lev f k).
Proof.
  intros (Hsup & H & EN & HN & HJ & Hmo) Hf (w & Ew & _ & _ & _).
  destruct (new_filters _ _ _ _ _ Hsup H EN HN HJ) as (HNp & _ & Tphi & Tpsi).
  assert (T : exists full, tabulated (padded_length s N) full f /\ all_real (nd_data full)).
  { destruct Hf as [->|Hf].
    - eexists. split; [exact Tphi|]. unfold gauss_1d, morlet_1d. cbn [nd_data]. apply all_real_map.
    - destruct (Tpsi f Hf) as (_ & _ & T). eexists. split; [exact T|]. unfold morlet_1d. cbn [nd_data]. apply all_real_map. }
  destruct T as (full & T & R). unfold lev. rewrite Ew. destruct (tb_k _ _ _ T _ _ Ew) as (_ & _ & Lw & Vw).
  intros i. destruct (Nat.lt_ge_cases i (List.length (nd_data w))) as [Hi|Hi].
  - rewrite Vw by (rewrite <- Lw; exact Hi).
    assert (G : forall m g, (forall j, Im (g j) = 0%R) -> Im (csum m g) = 0%R).
    { intros m g Hg. induction m as [|m IH]; [reflexivity|]. cbn [csum]. specialize (Hg m).
      change (Im (csum m g + g m)%C) with (Im (csum m g) + Im (g m))%R. lra. }
    apply G. intros j. apply R.
  - rewrite at_over by exact Hi. reflexivity.
Qed.
(** l1 norm of a level: the impulse response sampled every 2^k instants, times 2^k. *)
Lemma stored_l1 support p out s N f k n : constructed support p out s N -> stored s f -> 0 <= k -> level_ok f k n ->
  l1 (idft (lev f k)) = (2 ^ Z.to_nat k * rsum (padded_length s N / 2 ^ Z.to_nat k) (fun u => Cmod (at_ (idft (lev f 0)) (2 ^ Z.to_nat k * u))))%R.
Proof.
  intros Hc Hf Hk (w & Ew & _ & _ & _). pose proof Hc as (Hsup & H & EN & HN & HJ & Hmo).
  destruct (new_filters _ _ _ _ _ Hsup H EN HN HJ) as (HNp & _ & Tphi & Tpsi).
  assert (T : exists full, tabulated (padded_length s N) full f).
  { destruct Hf as [->|Hf']; [eauto|]. destruct (Tpsi f Hf') as (_ & _ & T). eauto. }
  destruct T as (full & T). destruct (C28_levels_are_sampled _ _ _ _ _ f (Z.to_nat k) full w Hc Hf (tb_0 _ _ _ T) Ew) as (_ & _ & _ & V & _).
  rewrite (tabulated_lev0 _ _ _ T). unfold lev. rewrite Ew. destruct (tb_k _ _ _ T _ _ Ew) as (_ & _ & Lw & _).
  unfold l1. rewrite idft_length, Lw. rewrite rsum_csum. cbn [fst RtoC].
  rewrite (rsum_ext _ _ (fun u => 2 ^ Z.to_nat k * Cmod (at_ (idft (nd_data full)) (2 ^ Z.to_nat k * u)))%R).
  - generalize (padded_length s N / 2 ^ Z.to_nat k)%nat as m. induction m as [|m IH]; cbn [rsum]; [ring|]. rewrite IH. ring.
  - intros u Hu. rewrite V by exact Hu. rewrite Cmod_mult, Cmod_R. f_equal. rewrite pow_INR. cbn [INR].
    replace (1 + 1)%R with 2%R by lra. apply Rabs_right. apply Rle_ge, pow_le. lra.
Qed.
