(** Lemmas about the filter factory and the constructor: every resolution that the transform looks up has
    been tabulated. *)
From Coq Require Import ZArith List Bool QArith String Arith Lia.
From Verif Require Import Base BaseProofs NdArray Backend Core1d Utils1d Utils1dProofs Frontend1d Frontend1dProofs NdProofs Rows1d
  FrontRows Factory1d.
Import ListNotations.
Local Open Scope Z_scope.

Section FP.
Context {K P : Type} (o : ops K) (F : formulas K P).
Notation filter := (filter (nd K) P).

(** What the numerical formulas must satisfy; proved for the real-number formulas in FilterBank1dProofs.v. *)
Record sane : Prop := {
  sane_morlet : forall N xi s, nd_shape (fo_morlet F N xi s) = [N] /\ nd_dtype (fo_morlet F N xi s) = Real /\
      List.length (nd_data (fo_morlet F N xi s)) = N;
  sane_gauss : forall N s, nd_shape (fo_gauss F N s) = [N] /\ nd_dtype (fo_gauss F N s) = Real /\
      List.length (nd_data (fo_gauss F N s)) = N;
  sane_j : forall J q xi s, 0 <= J -> 1 <= q -> In (xi, s) (fo_bank F J q) ->
      0 <= fo_j F xi s <= Z.max (J - 1) 0;
  sane_max : forall J q1 q2 xi s, 0 <= J -> 1 <= q2 <= q1 -> In (xi, s) (fo_bank F J q2) ->
      exists xi' s', In (xi', s') (fo_bank F J q1) /\ fo_j F xi s <= fo_j F xi' s'
}.

Lemma p2_of_Z k : 0 <= k -> Z.to_nat (2 ^ k) = p2 k.
Proof. intros H. rewrite <- (p2_Z k H), Nat2Z.id. reflexivity. Qed.

Lemma reduce_level_ok full n k w : nd_shape full = [n] -> 0 <= k -> reduce_level o full k = Ok w ->
  nd_shape w = [(n / p2 k)%nat] /\ nd_dtype w = nd_dtype full /\ List.length (nd_data w) = (n / p2 k)%nat /\
  Nat.divide (p2 k) n /\ nd_data w = periodize_sum_row o (p2 k) (n / p2 k) (nd_data full).
Proof.
  intros Hs Hk. unfold reduce_level. rewrite Hs, p2_of_Z by assumption.
  replace (prod [n]) with n by (cbn; lia).
  destruct (Nat.eqb_spec (p2 k * (n / p2 k)) n) as [E|]; [|discriminate].
  intros H. injection H; intros <-. cbn [nd_shape nd_dtype nd_data]. repeat split.
  - unfold periodize_sum_row. now rewrite map_length, seq_length.
  - exists (n / p2 k)%nat. lia.
Qed.
Lemma reduce_level_total full n k : nd_shape full = [n] -> 0 <= k -> Nat.divide (p2 k) n ->
  exists w, reduce_level o full k = Ok w.
Proof.
  intros Hs Hk [m Hm]. unfold reduce_level. rewrite Hs, p2_of_Z by assumption.
  replace (prod [n]) with n by (cbn; lia). pose proof (p2_pos k).
  destruct (Nat.eqb_spec (p2 k * (n / p2 k)) n) as [E|E]; [eauto|]. exfalso. apply E. subst n.
  rewrite Nat.div_mul by lia. lia.
Qed.

Lemma zrange_nth a b i : (i < Z.to_nat (b - a))%nat -> nth_error (zrange a b) i = Some (a + Z.of_nat i).
Proof.
  intros H. unfold zrange. rewrite nth_error_map. 
  rewrite (nth_error_nth' (seq 0 (Z.to_nat (b - a))) 0%nat) by (rewrite seq_length; exact H).
  rewrite seq_nth by exact H. reflexivity.
Qed.

Lemma levels_upto_ok full n stop lev : nd_shape full = [n] -> nd_dtype full = Real ->
  List.length (nd_data full) = n -> levels_upto o full stop = Ok lev ->
  forall k, 0 <= k < Z.max stop 1 ->
    Nat.divide (p2 k) n /\
    exists w, nth_error lev (Z.to_nat k) = Some w /\ nd_shape w = [(n / p2 k)%nat] /\ nd_dtype w = Real /\
      List.length (nd_data w) = (n / p2 k)%nat.
Proof.
  intros Hs Hd Hl H k Hk. unfold levels_upto in H. inv_bind H. injection H; intros <-. clear H.
  destruct (Z.eq_dec k 0) as [->|Hk0].
  - rewrite p2_0, Nat.div_1_r. split; [exists n; lia|]. exists full. auto.
  - replace (Z.to_nat k) with (S (Z.to_nat (k - 1))) by lia. cbn [nth_error].
    apply mapM_ok in E.
    destruct (Forall2_nth_error_l _ _ _ (Z.to_nat (k - 1)) (1 + Z.of_nat (Z.to_nat (k - 1))) E) as (w & Hw & Ew).
    { apply zrange_nth. lia. }
    replace (1 + Z.of_nat (Z.to_nat (k - 1))) with k in Ew by lia.
    destruct (reduce_level_ok full n k w Hs ltac:(lia) Ew) as (E1 & E2 & E3 & E4 & _).
    split; [exact E4|]. exists w. rewrite E2, Hd. auto.
Qed.
Lemma levels_upto_total full n stop : nd_shape full = [n] ->
  (forall k, 1 <= k < stop -> Nat.divide (p2 k) n) -> exists lev, levels_upto o full stop = Ok lev.
Proof.
  intros Hs H. unfold levels_upto. destruct (mapM_total (reduce_level o full) (zrange 1 stop)) as [l El].
  - intros k Hk. apply In_zrange in Hk. apply (reduce_level_total full n); [assumption|lia|]. apply H. lia.
  - rewrite El. cbn [bind]. eauto.
Qed.

Lemma upd_max_j_ge (psis : list filter) m : m <= upd_max_j m psis /\ forall f, In f psis -> f_j f <= upd_max_j m psis.
Proof.
  unfold upd_max_j. revert m. induction psis as [|f psis IH]; intros m; cbn [fold_left].
  - split; [lia|intros f []].
  - destruct (IH (Z.max (f_j f) m)) as [IH1 IH2]. split; [lia|]. intros f' [<-|H]; [lia|]. now apply IH2.
Qed.
Lemma upd_max_j_le (psis : list filter) m b : m <= b -> (forall f, In f psis -> f_j f <= b) -> upd_max_j m psis <= b.
Proof.
  unfold upd_max_j. revert m. induction psis as [|f psis IH]; intros m Hm Hf; cbn [fold_left]; [exact Hm|].
  apply IH; [|intros; apply Hf; now right]. specialize (Hf f (or_introl eq_refl)). lia.
Qed.

(** A filter of a layer comes from an element of the bank. *)
Lemma layer_In N l2T pj bank psis f : mapM (make_psi o F N l2T pj) bank = Ok psis -> In f psis ->
  exists xi s, In (xi, s) bank /\ f_xi f = xi /\ f_sigma f = s /\ f_j f = fo_j F xi s /\
    levels_upto o (fo_morlet F N xi s) (Z.min (Z.min pj (f_j f)) (1 + l2T)) = Ok (f_levels f).
Proof.
  intros H Hf. apply mapM_ok in H. destruct (Forall2_In_r _ _ _ _ H Hf) as ([xi s] & Hin & E).
  exists xi, s. unfold make_psi in E. inv_bind E. injection E; intros <-. cbn. auto.
Qed.
Lemma layer_In' N l2T pj bank psis xi s : mapM (make_psi o F N l2T pj) bank = Ok psis -> In (xi, s) bank ->
  exists f, In f psis /\ f_xi f = xi /\ f_sigma f = s /\ f_j f = fo_j F xi s.
Proof.
  intros H Hx. apply mapM_ok in H. destruct (Forall2_In_l _ _ _ _ H Hx) as (f & Hin & E).
  exists f. unfold make_psi in E. inv_bind E. injection E; intros <-. cbn. auto.
Qed.

(** Result of the factory for two layers. *)
Lemma factory_inv N J q1 q2 T l2T phi psi1s psi2s :
  filter_factory o F N J [QI q1; QI q2] T l2T = Ok (phi, [psi1s; psi2s]) ->
  let pj1 := upd_max_j 0 psi1s in
  let pj2 := upd_max_j pj1 psi2s in
  mapM (make_psi o F N l2T 0) (fo_bank F J q1) = Ok psi1s /\
  mapM (make_psi o F N l2T pj1) (fo_bank F J q2) = Ok psi2s /\
  levels_upto o (fo_gauss F N (fo_sigma_low F T)) (Z.max pj2 (1 + l2T)) = Ok (f_levels phi) /\
  f_j phi = l2T.
Proof.
  unfold filter_factory. cbn [make_layers]. intros H.
  destruct (mapM (make_psi o F N l2T 0) (fo_bank F J q1)) as [ps1|] eqn:E1; cbn [bind] in H; [|discriminate].
  destruct (mapM (make_psi o F N l2T (upd_max_j 0 ps1)) (fo_bank F J q2)) as [ps2|] eqn:E2; cbn [bind] in H;
    [|discriminate].
  destruct (levels_upto _ _ _) as [lev|] eqn:E3; cbn [bind] in H; [|discriminate].
  injection H; intros; subst. cbn [f_levels f_j]. auto.
Qed.

Hypothesis (HF : sane).

Theorem factory_adm N J q1 q2 T l2T phi psi1s psi2s :
  (0 < N)%nat -> 0 <= J -> 1 <= q2 <= q1 -> 0 <= l2T ->
  filter_factory o F N J [QI q1; QI q2] T l2T = Ok (phi, [psi1s; psi2s]) ->
  (forall f, In f psi1s \/ In f psi2s -> 0 <= f_j f <= Z.max (J - 1) 0) /\
  (forall two ls, 0 <= ls <= l2T -> adm phi psi1s psi2s two N ls true) /\
  (forall two ls, 0 <= ls -> J <= l2T -> adm phi psi1s psi2s two N ls false).
Proof.
  intros HN HJ Hq Hl2T H. pose proof (factory_inv _ _ _ _ _ _ _ _ _ H) as (E1 & E2 & E3 & Ej).
  set (pj1 := upd_max_j 0 psi1s) in *. set (pj2 := upd_max_j pj1 psi2s) in *.
  assert (J1 : forall f, In f psi1s -> 0 <= f_j f <= Z.max (J - 1) 0).
  { intros f Hf. destruct (layer_In _ _ _ _ _ _ E1 Hf) as (xi & s & Hin & _ & _ & -> & _).
    apply (sane_j HF J q1); [lia|lia|exact Hin]. }
  assert (J2 : forall f, In f psi2s -> 0 <= f_j f <= Z.max (J - 1) 0).
  { intros f Hf. destruct (layer_In _ _ _ _ _ _ E2 Hf) as (xi & s & Hin & _ & _ & -> & _).
    apply (sane_j HF J q2); [lia|lia|exact Hin]. }
  assert (L1 : forall f, In f psi1s -> level_ok f 0 N).
  { intros f Hf. destruct (layer_In _ _ _ _ _ _ E1 Hf) as (xi & s & Hin & _ & _ & _ & El).
    destruct (sane_morlet HF N xi s) as (M1 & M2 & M3).
    destruct (levels_upto_ok _ _ _ _ M1 M2 M3 El 0 ltac:(lia)) as (_ & w & W1 & W2 & W3 & W4).
    rewrite p2_0, Nat.div_1_r in *. exists w. rewrite W3. repeat split; try assumption. discriminate. }
  assert (L2 : forall f1 f2 k, In f1 psi1s -> In f2 psi2s -> f_j f1 < f_j f2 -> 0 <= k <= f_j f1 -> k <= l2T ->
     level_ok f2 k (N / p2 k)).
  { intros f1 f2 k Hf1 Hf2 Hlt Hk Hkl. destruct (layer_In _ _ _ _ _ _ E2 Hf2) as (xi & s & Hin & _ & _ & Ejf & El).
    destruct (sane_morlet HF N xi s) as (M1 & M2 & M3).
    destruct (sane_max HF J q1 q2 xi s HJ Hq Hin) as (xi' & s' & Hin' & Hle).
    destruct (layer_In' _ _ _ _ _ _ _ E1 Hin') as (f' & Hf' & _ & _ & Ejf').
    assert (f_j f' <= pj1) by (apply upd_max_j_ge; assumption).
    destruct (levels_upto_ok _ _ _ _ M1 M2 M3 El k ltac:(lia)) as (_ & w & W1 & W2 & W3 & W4).
    exists w. rewrite W3. repeat split; try assumption. discriminate. }
  assert (LP : forall k, 0 <= k <= l2T -> Nat.divide (p2 k) N /\ level_ok phi k (N / p2 k)).
  { intros k Hk. destruct (sane_gauss HF N (fo_sigma_low F T)) as (M1 & M2 & M3).
    destruct (levels_upto_ok _ _ _ _ M1 M2 M3 E3 k ltac:(lia)) as (D & w & W1 & W2 & W3 & W4).
    split; [exact D|]. exists w. rewrite W3. repeat split; try assumption. discriminate. }
  split; [|split].
  - intros f [Hf|Hf]; auto.
  - intros two ls Hls. constructor.
    + exact HN.
    + lia.
    + intros _. split; [apply LP; lia|]. pose proof (proj2 (LP 0 ltac:(lia))) as L0.
      rewrite p2_0, Nat.div_1_r in L0. exact L0.
    + intros f1 Hf1. pose proof (J1 f1 Hf1). split; [lia|]. split; [apply L1; exact Hf1|]. split; [discriminate|].
      intros _. unfold kk. apply LP. lia.
    + intros _ f1 f2 Hf1 Hf2 Hlt. pose proof (J1 f1 Hf1). pose proof (J2 f2 Hf2). unfold kk.
      split; [apply (L2 f1 f2); try assumption; lia|]. split; [discriminate|]. intros _. apply LP. lia.
  - intros two ls Hls HJl. constructor.
    + exact HN.
    + exact Hls.
    + discriminate.
    + intros f1 Hf1. pose proof (J1 f1 Hf1). split; [lia|]. split; [apply L1; exact Hf1|].
      split; [intros _; apply LP; lia|discriminate].
    + intros _ f1 f2 Hf1 Hf2 Hlt. pose proof (J1 f1 Hf1). pose proof (J2 f2 Hf2). unfold kk. split; [|split].
      * apply (L2 f1 f2); try assumption; lia.
      * intros _. apply LP. lia.
      * discriminate.
Qed.

(** The factory succeeds when 2**max(log2_T, J-1) divides N. *)
Theorem factory_total N J q1 q2 T l2T : 0 <= J -> 1 <= q1 -> 1 <= q2 -> 0 <= l2T ->
  (forall k, 0 <= k <= Z.max l2T (J - 2) -> Nat.divide (p2 k) N) ->
  exists phi psi1s psi2s, filter_factory o F N J [QI q1; QI q2] T l2T = Ok (phi, [psi1s; psi2s]).
Proof.
  intros HJ Hq1 Hq2 Hl HD.
  assert (T1 : forall pj q, 1 <= q -> exists psis, mapM (make_psi o F N l2T pj) (fo_bank F J q) = Ok psis /\
       forall f, In f psis -> f_j f <= Z.max (J - 1) 0).
  { intros pj q Hq. destruct (mapM_total (make_psi o F N l2T pj) (fo_bank F J q)) as [psis E].
    - intros [xi s] Hin. unfold make_psi.
      destruct (sane_morlet HF N xi s) as (M1 & M2 & M3). pose proof (sane_j HF J q xi s HJ Hq Hin).
      destruct (levels_upto_total (fo_morlet F N xi s) N (Z.min (Z.min pj (fo_j F xi s)) (1 + l2T)) M1) as [lev El].
      + intros k Hk. apply HD. lia.
      + rewrite El. cbn [bind]. eauto.
    - exists psis. split; [exact E|]. intros f Hf.
      destruct (layer_In _ _ _ _ _ _ E Hf) as (xi & s & Hin & _ & _ & -> & _).
      apply (sane_j HF J q); assumption. }
  destruct (T1 0 q1 Hq1) as (psi1s & E1 & B1).
  destruct (T1 (upd_max_j 0 psi1s) q2 Hq2) as (psi2s & E2 & B2).
  unfold filter_factory. cbn [make_layers]. rewrite E1. cbn [bind]. rewrite E2. cbn [bind].
  destruct (sane_gauss HF N (fo_sigma_low F T)) as (M1 & _).
  assert (B : upd_max_j (upd_max_j 0 psi1s) psi2s <= Z.max (J - 1) 0).
  { apply upd_max_j_le; [|exact B2]. apply upd_max_j_le; [lia|exact B1]. }
  destruct (levels_upto_total (fo_gauss F N (fo_sigma_low F T)) N
     (Z.max (upd_max_j (upd_max_j 0 psi1s) psi2s) (1 + l2T)) M1) as [lev El].
  - intros k Hk. apply HD. lia.
  - rewrite El. cbn [bind]. eauto.
Qed.

(** A level that exists has the expected length. *)
Lemma levels_upto_nth full n stop lev k w : nd_shape full = [n] -> nd_dtype full = Real ->
  List.length (nd_data full) = n -> levels_upto o full stop = Ok lev -> 0 <= k ->
  py_index lev k = Ok w -> nd_shape w = [(n / p2 k)%nat] /\ nd_dtype w <> OtherT /\
    List.length (nd_data w) = (n / p2 k)%nat.
Proof.
  intros Hs Hd Hl H Hk Hw. apply py_index_nonneg in Hw; [|assumption].
  assert (k < Z.max stop 1).
  { assert (Hn : nth_error lev (Z.to_nat k) <> None) by congruence. apply nth_error_Some in Hn.
    unfold levels_upto in H. inv_bind H. injection H; intros <-. apply mapM_length in E.
    cbn [List.length] in Hn. unfold zrange in E. rewrite map_length, seq_length in E. lia. }
  destruct (levels_upto_ok full n stop lev Hs Hd Hl H k ltac:(lia)) as (_ & w' & W1 & W2 & W3 & W4).
  rewrite Hw in W1. injection W1; intros <-. rewrite W3. repeat split; try assumption. discriminate.
Qed.

(** When the transform returns, every resolution it looked up was tabulated. *)
Theorem factory_adm_run {X} (be : backend X (nd K)) N J q1 q2 T l2T phi psi1s psi2s U (two : bool) (ls : Z) (al : bool) gen :
  (0 < N)%nat -> 0 <= J -> 1 <= q1 -> 1 <= q2 -> 0 <= l2T -> 0 <= ls ->
  filter_factory o F N J [QI q1; QI q2] T l2T = Ok (phi, [psi1s; psi2s]) ->
  (if al then Nat.divide (p2 ls) N else J <= l2T) ->
  scattering1d be U phi (if two then [psi1s; psi2s] else [psi1s]) ls al = Ok gen ->
  adm phi psi1s psi2s two N ls al.
Proof.
  intros HN HJ Hq1 Hq2 Hl2T Hls H Hal Hrun. pose proof (factory_inv _ _ _ _ _ _ _ _ _ H) as (E1 & E2 & E3 & Ej).
  set (pj1 := upd_max_j 0 psi1s) in *. set (pj2 := upd_max_j pj1 psi2s) in *.
  assert (J1 : forall f, In f psi1s -> 0 <= f_j f <= Z.max (J - 1) 0).
  { intros f Hf. destruct (layer_In _ _ _ _ _ _ E1 Hf) as (xi & s & Hin & _ & _ & -> & _).
    apply (sane_j HF J q1); [lia|lia|exact Hin]. }
  assert (J2 : forall f, In f psi2s -> 0 <= f_j f <= Z.max (J - 1) 0).
  { intros f Hf. destruct (layer_In _ _ _ _ _ _ E2 Hf) as (xi & s & Hin & _ & _ & -> & _).
    apply (sane_j HF J q2); [lia|lia|exact Hin]. }
  assert (L1 : forall f k w, In f psi1s -> 0 <= k -> py_index (f_levels f) k = Ok w -> level_ok f k (N / p2 k)).
  { intros f k w Hf Hk Hw. destruct (layer_In _ _ _ _ _ _ E1 Hf) as (xi & s & Hin & _ & _ & _ & El).
    destruct (sane_morlet HF N xi s) as (M1 & M2 & M3). exists w.
    split; [now apply py_index_nonneg|]. eapply levels_upto_nth; eassumption. }
  assert (L2 : forall f k w, In f psi2s -> 0 <= k -> py_index (f_levels f) k = Ok w -> level_ok f k (N / p2 k)).
  { intros f k w Hf Hk Hw. destruct (layer_In _ _ _ _ _ _ E2 Hf) as (xi & s & Hin & _ & _ & _ & El).
    destruct (sane_morlet HF N xi s) as (M1 & M2 & M3). exists w.
    split; [now apply py_index_nonneg|]. eapply levels_upto_nth; eassumption. }
  assert (LP : forall k w, 0 <= k -> py_index (f_levels phi) k = Ok w -> level_ok phi k (N / p2 k)).
  { intros k w Hk Hw. destruct (sane_gauss HF N (fo_sigma_low F T)) as (M1 & M2 & M3). exists w.
    split; [now apply py_index_nonneg|]. eapply levels_upto_nth; eassumption. }
  assert (DJ : al = false -> forall k, 0 <= k <= Z.max (J - 1) 0 -> Nat.divide (p2 k) N).
  { intros -> k Hk. destruct (sane_gauss HF N (fo_sigma_low F T)) as (M1 & M2 & M3).
    apply (levels_upto_ok _ _ _ _ M1 M2 M3 E3 k). lia. }
  unfold scattering1d in Hrun. inv_bind Hrun. inv_bind Hrun. inv_bind Hrun. inv_bind Hrun.
  assert (v1 = psi1s) by (destruct two; cbn in E4; congruence). subst v1.
  replace (nth_error (if two then [psi1s; psi2s] else [psi1s]) 1) with (if two then Some psi2s else None) in E5
    by (destruct two; reflexivity).
  apply mapM_ok in E5.
  constructor.
  - exact HN.
  - exact Hls.
  - intros ->. split; [exact Hal|]. unfold order0 in E0. inv_bind E0. apply LP in E6; [|lia].
    rewrite p2_0, Nat.div_1_r in E6. exact E6.
  - intros f1 Hf1. pose proof (J1 f1 Hf1) as Hj. split; [lia|].
    apply In_nth_error in Hf1 as (n1 & Hn1). pose proof (proj2 (In_enumerate psi1s n1 f1) Hn1) as He.
    destruct (Forall2_In_l _ _ _ _ E5 He) as (y & _ & Ey). apply nth_error_In in Hn1.
    unfold order1, order1_modulus in Ey. inv_bind Ey. inv_bind E6. apply L1 in E7; [|assumption|lia].
    rewrite p2_0, Nat.div_1_r in E7. split; [exact E7|]. split.
    + intros Ef. apply DJ; [exact Ef|lia].
    + intros ->. inv_bind Ey. inv_bind Ey. inv_bind E9. apply (LP _ _) in E10; [exact E10|lia].
  - intros -> f1 f2 Hf1 Hf2 Hlt. pose proof (J1 f1 Hf1) as Hj1. pose proof (J2 f2 Hf2) as Hj2.
    apply In_nth_error in Hf1 as (n1 & Hn1). pose proof (proj2 (In_enumerate psi1s n1 f1) Hn1) as He.
    destruct (Forall2_In_l _ _ _ _ E5 He) as (y & _ & Ey).
    apply In_nth_error in Hf2 as (n2 & Hn2). pose proof (proj2 (In_enumerate psi2s n2 f2) Hn2) as He2.
    unfold order1 in Ey. inv_bind Ey. inv_bind Ey. inv_bind Ey. inv_bind Ey. clear Ey. rename E9 into Em.
    apply mapM_ok in Em. destruct (Forall2_In_l _ _ _ _ Em He2) as (y2 & _ & Ey2).
    unfold order2 in Ey2. rewrite (proj2 (Z.ltb_lt _ _) Hlt) in Ey2. inv_bind Ey2.
    change (if al then Z.min (f_j f1) ls else f_j f1) with (kk ls al f1) in *.
    change (if al then Z.min (f_j f2) ls else f_j f2) with (kk ls al f2) in *.
    assert (Hk1 : 0 <= kk ls al f1) by (unfold kk; destruct al; lia).
    assert (Hk2 : kk ls al f1 <= kk ls al f2) by (unfold kk; destruct al; lia).
    split; [apply (L2 f2 _ v6); [eapply nth_error_In; eassumption|exact Hk1|assumption]|]. split.
    + intros Ef. apply DJ; [exact Ef|lia].
    + intros ->. inv_bind Ey2. inv_bind Ey2. inv_bind Ey2. inv_bind Ey2. inv_bind Ey2. inv_bind Ey2.
      rewrite Z.max_l in E15 by lia. replace (kk ls true f1 + (kk ls true f2 - kk ls true f1)) with (kk ls true f2) in E15 by lia.
      eapply LP; [lia|exact E15].
Qed.

(** The state left by the constructor, apart from the filters. *)
Theorem new_ready_gen support p out s N q1 q2 ls a l2T :
  (forall n t, 0 <= support n t) -> new_scattering1d o F support p out = Ok s ->
  N_input_of (p_shape p) = Ok N -> 1 <= N -> 0 <= p_J p -> 1 <= p_max_order p <= 2 ->
  Q_of (p_Q p) = Ok [QI q1; QI q2] -> 1 <= q1 -> 1 <= q2 ->
  s_log2_stride s = Ok ls -> s_average s = Ok a ->
  log2_T_of (p_T p) (p_J p) N = Ok l2T ->
  (a = Local -> ls <= Z.max l2T (p_J p)) -> (a <> Local -> p_oversampling p = OInt 0) ->
  exists Np T, (0 < Np)%nat /\ 0 <= l2T /\ 0 <= ls /\ (a <> Local -> l2T = p_J p) /\
    (exists k, Np = p2 k /\ 0 <= k) /\
    Z.of_nat Np = s_pad_left s + N + s_pad_right s /\
    filter_factory o F Np (p_J p) [QI q1; QI q2] T l2T = Ok (s_phi s, [s_psi1 s; s_psi2 s]) /\
    (adm (s_phi s) (s_psi1 s) (s_psi2 s) (s_max_order s =? 2) Np ls (is_local a) ->
     exists l r, Np = (l + Z.to_nat N + r)%nat /\ ready s (Z.to_nat N) l r (Z.to_nat (Z.max l2T (p_J p))) ls a).
Proof.
  intros Hsup H EN HN HJ Hmo EQ Hq1 Hq2 Els Ea ET Hloc Hover. unfold new_scattering1d in H.
  inv_bind H. rename v into b. pose proof (build_plan support p b Hsup E) as Plan.
  destruct (build_inv _ _ _ E) as (st & T & l & r & EN' & ES & ET' & EP & Eb).
  assert (EbN : b_N b = N) by congruence. rewrite EbN in *. specialize (Plan HN).
  destruct Plan as ((k & Hk & Epow) & B1 & B2 & B3 & B4 & B5 & B6 & B7).
  rewrite EQ in H. cbn [bind] in H. rewrite ET' in H. cbn [bind] in H. rewrite ET in H. cbn [bind] in H.
  inv_bind H. destruct v as [phi psis]. rename E0 into EF.
  destruct psis as [|psi1s [|psi2s [|]]]; try discriminate.
  inv_bind H. injection H; intros Hs. clear H.
  assert (El2T : l2T = log2_floor T (p_J p)).
  { unfold log2_T_of in ET. rewrite ET' in ET. cbn [bind] in ET. congruence. }
  assert (HT : (1 <= T)%Q).
  { unfold T_of in ET'. inv_bind ET'. destruct v0 as [T' a']. cbn in ET'. injection ET'; intros <-.
    apply (parse_T_ge1 _ _ _ _ _ HJ E1). }
  pose proof (log2_floor_spec T (p_J p) HT) as (Hl2T & _). rewrite <- El2T in Hl2T.
  assert (Eav : average_of (p_T p) (p_J p) N = Ok a) by (rewrite <- Hs in Ea; exact Ea).
  assert (Estr : log2_stride_of (b_stride b) (p_T p) (p_J p) N = Ok ls) by (rewrite <- Hs in Els; exact Els).
  assert (Hls : 0 <= ls).
  { revert Estr. destruct (b_stride b) as [|z|q|]; cbn [log2_stride_of]; try discriminate.
    - congruence.
    - destruct (z <=? 0); [discriminate|]. destruct (negb _); [discriminate|]. rewrite Eav. cbn [bind].
      destruct a; try discriminate. intros G; injection G; intros <-. apply Z.log2_nonneg. }
  assert (HTJ : a <> Local -> l2T = p_J p).
  { intros Hna. rewrite El2T. assert (T = Qpower 2 (p_J p)); [|subst T; apply log2_floor_pow2; lia].
    unfold average_of in Eav. unfold T_of in ET'. destruct (parse_T (p_T p) (p_J p) N) as [[T' a']|] eqn:Ep; [|discriminate].
    cbn in Eav, ET'. injection Eav; intros ->. injection ET'; intros <-.
    destruct (p_T p) as [| | |t]; cbn in Ep; try discriminate; try congruence.
    destruct (Qltb _ t); [discriminate|]. destruct (Qeq_bool t 0); [congruence|].
    destruct (Qltb t 1); [discriminate|]. congruence. }
  exists (Z.to_nat (b_Npad b)), T.
  split; [lia|]. split; [exact Hl2T|]. split; [exact Hls|]. split; [exact HTJ|].
  split. { exists k. split; [|exact Hk]. rewrite Epow. apply p2_of_Z. exact Hk. }
  split. { rewrite <- Hs. cbn [s_pad_left s_pad_right]. lia. }
  split. { rewrite <- Hs. cbn [s_phi s_psi1 s_psi2]. exact EF. }
  intros Hadm. exists (Z.to_nat (b_left b)), (Z.to_nat (b_right b)).
  assert (EN2 : (Z.to_nat (b_left b) + Z.to_nat N + Z.to_nat (b_right b))%nat = Z.to_nat (b_Npad b)) by lia.
  split; [now symmetry|].
  assert (Est : b_start b = border_list (Z.to_nat (Z.max l2T (p_J p))) (b_left b)).
  { rewrite Eb at 1. cbn [b_start]. unfold compute_border_indices. cbn [fst]. rewrite <- El2T. rewrite Eb. reflexivity. }
  assert (Een : b_end b = border_list (Z.to_nat (Z.max l2T (p_J p))) (b_left b + N)).
  { rewrite Eb at 1. cbn [b_end]. unfold compute_border_indices. cbn [snd]. rewrite <- El2T. rewrite Eb. reflexivity. }
  assert (A1 : forall f, In f psi1s \/ In f psi2s -> f_j f <= Z.max (p_J p) 0).
  { pose proof (factory_inv _ _ _ _ _ _ _ _ _ EF) as (E1 & E2 & _).
    intros f [Hf|Hf].
    - destruct (layer_In _ _ _ _ _ _ E1 Hf) as (xi & s0 & Hin & _ & _ & -> & _).
      pose proof (sane_j HF (p_J p) q1 xi s0 HJ ltac:(lia) Hin). lia.
    - destruct (layer_In _ _ _ _ _ _ E2 Hf) as (xi & s0 & Hin & _ & _ & -> & _).
      pose proof (sane_j HF (p_J p) q2 xi s0 HJ ltac:(lia) Hin). lia. }
  rewrite <- Hs in Hadm |- *. constructor; cbn [s_max_order s_pad_left s_pad_right s_log2_stride s_average s_phi s_psi1 s_psi2
      s_ind_start s_ind_end s_oversampling] in *.
  - exact Hmo.
  - lia.
  - lia.
  - lia.
  - lia.
  - exact Estr.
  - exact Eav.
  - rewrite EN2. exact Hadm.
  - rewrite Est. f_equal. lia.
  - rewrite Een. f_equal. lia.
  - destruct a; cbn [is_local].
    + specialize (Hloc eq_refl). lia.
    + intros f Hf. specialize (A1 f Hf). lia.
    + intros f Hf. specialize (A1 f Hf). lia.
  - intros Hn. apply Hover. destruct a; discriminate.
Qed.

(** The constructed object is ready to transform inputs of length N. *)
Theorem new_ready support p out s N q1 q2 ls a l2T :
  (forall n t, 0 <= support n t) -> new_scattering1d o F support p out = Ok s ->
  N_input_of (p_shape p) = Ok N -> 1 <= N -> 0 <= p_J p -> 1 <= p_max_order p <= 2 ->
  Q_of (p_Q p) = Ok [QI q1; QI q2] -> 1 <= q2 <= q1 ->
  s_log2_stride s = Ok ls -> s_average s = Ok a ->
  log2_T_of (p_T p) (p_J p) N = Ok l2T ->
  (a = Local -> ls <= l2T) -> (a <> Local -> p_oversampling p = OInt 0) ->
  exists l r, ready s (Z.to_nat N) l r (Z.to_nat (Z.max l2T (p_J p))) ls a.
Proof.
  intros Hsup H EN HN HJ Hmo EQ Hq Els Ea ET Hloc Hover.
  destruct (new_ready_gen support p out s N q1 q2 ls a l2T) as (Np & T & HNp & Hl2T & Hls & HTJ & _ & _ & EF & HR);
    try assumption; try lia.
  destruct (factory_adm _ _ _ _ _ _ _ _ _ HNp HJ Hq Hl2T EF) as (A1 & A2 & A3).
  destruct HR as (l & r & _ & HR); [|eauto].
  destruct a; cbn [is_local].
  - apply A2. specialize (Hloc eq_refl). lia.
  - apply A3; [exact Hls|]. rewrite HTJ by discriminate. lia.
  - apply A3; [exact Hls|]. rewrite HTJ by discriminate. lia.
Qed.

(** Same, from a successful call instead of the conditions on Q and on the stride. *)
Theorem new_ready_run support p out s N q1 q2 ls a l2T {X} (be : backend X (nd K)) U gen :
  (forall n t, 0 <= support n t) -> new_scattering1d o F support p out = Ok s ->
  N_input_of (p_shape p) = Ok N -> 1 <= N -> 0 <= p_J p -> 1 <= p_max_order p <= 2 ->
  Q_of (p_Q p) = Ok [QI q1; QI q2] -> 1 <= q1 -> 1 <= q2 ->
  s_log2_stride s = Ok ls -> s_average s = Ok a ->
  log2_T_of (p_T p) (p_J p) N = Ok l2T ->
  (a = Local -> ls <= Z.max l2T (p_J p) /\ 2 ^ ls <= s_pad_left s + N + s_pad_right s) ->
  (a <> Local -> p_oversampling p = OInt 0) ->
  scattering1d be U (s_phi s) (psis_of s) ls (is_local a) = Ok gen ->
  exists l r, ready s (Z.to_nat N) l r (Z.to_nat (Z.max l2T (p_J p))) ls a.
Proof.
  intros Hsup H EN HN HJ Hmo EQ Hq1 Hq2 Els Ea ET Hloc Hover Hrun.
  destruct (new_ready_gen support p out s N q1 q2 ls a l2T) as (Np & T & HNp & Hl2T & Hls & HTJ & (k & Ek & Hk) & ENp & EF & HR);
    try assumption; try lia.
  destruct HR as (l & r & _ & HR); [|eauto].
  refine (factory_adm_run be Np (p_J p) q1 q2 T l2T _ _ _ U _ ls _ gen HNp HJ Hq1 Hq2 Hl2T Hls EF _ _).
  - destruct a; cbn [is_local]; [|rewrite HTJ by discriminate; lia..].
    destruct (Hloc eq_refl) as [_ Hd]. rewrite <- ENp, Ek, p2_Z in Hd by assumption.
    assert (ls <= k).
    { destruct (Z.le_gt_cases ls k) as [L|L]; [exact L|exfalso].
      assert (2 ^ k < 2 ^ ls) by (apply Z.pow_lt_mono_r; lia). lia. }
    exists (p2 (k - ls)). rewrite Ek, <- p2_add by lia. f_equal. lia.
  - assert (Hmo' : 1 <= s_max_order s <= 2).
    { unfold new_scattering1d in H. inv_bind H. inv_bind H. inv_bind H. inv_bind H. inv_bind H.
      destruct v3 as [phi [|psi1s [|psi2s [|]]]]; try discriminate. inv_bind H. injection H; intros <-. exact Hmo. }
    destruct (psis_of_cases s Hmo') as [[E1 E2]|[E1 E2]]; rewrite E1; rewrite E2 in Hrun; exact Hrun.
Qed.
End FP.
