(** The keys of the JTFS paths in the terms of SpecJtfs.v. *)
From Coq Require Import String ZArith List Bool Lia.
From Verif Require Import Base BaseProofs NdArray Backend Core1d Utils1d Frontend1d Core1dProofs Frontend1dProofs Jtfs JtfsFront
  JtfsProofs SpecJtfs.
Import ListNotations.
Local Open Scope Z_scope.

Section Lists.
Context {A B C : Type}.
Lemma flat_map_enumerate (f : A -> B) d (g : nat -> B -> list C) l :
  flat_map (fun na => g (fst na) (f (snd na))) (enumerate l) = flat_map (fun n => g n (nth n (map f l) d)) (seq 0 (List.length l)).
Proof.
  unfold enumerate. assert (G : forall i pre, List.length pre = i ->
    flat_map (fun na => g (fst na) (f (snd na))) (enum_from i l) = flat_map (fun n => g n (nth n (map f (pre ++ l)) d)) (seq i (List.length l))).
  { induction l as [|a l IH]; intros i pre Hp; [reflexivity|]. cbn [enum_from flat_map List.length seq fst snd].
    rewrite (IH (S i) (pre ++ [a])) by (rewrite app_length; cbn; lia). rewrite <- app_assoc. cbn [app].
    rewrite map_app, app_nth2 by (rewrite map_length; lia). rewrite map_length, Hp, Nat.sub_diag. reflexivity. }
  exact (G 0%nat [] eq_refl).
Qed.
Lemma flat_map_if_filter (b : A -> bool) (g : A -> list C) l :
  flat_map (fun x => if b x then g x else []) l = flat_map g (List.filter b l).
Proof. induction l as [|x l IH]; cbn; [reflexivity|]. destruct (b x); cbn; now rewrite IH. Qed.
Lemma flat_map_flat_map {D} (f : A -> list B) (g : B -> list D) l :
  flat_map g (flat_map f l) = flat_map (fun x => flat_map g (f x)) l.
Proof. induction l as [|x l IH]; cbn; [reflexivity|]. now rewrite flat_map_app, IH. Qed.
Lemma map_flat_map {D} (f : A -> list B) (g : B -> D) l : map g (flat_map f l) = flat_map (fun x => map g (f x)) l.
Proof. induction l as [|x l IH]; cbn; [reflexivity|]. now rewrite map_app, IH. Qed.
Lemma flat_map_map (f : A -> B) (g : B -> list C) l : flat_map g (map f l) = flat_map (fun x => g (f x)) l.
Proof. induction l as [|x l IH]; cbn; [reflexivity|]. now rewrite IH. Qed.
Lemma flat_map_single (f : A -> B) l : flat_map (fun x => [f x]) l = map f l.
Proof. induction l as [|x l IH]; cbn; [reflexivity|]. now rewrite IH. Qed.
Lemma flat_map_ext_In (f g : A -> list B) l : (forall x, In x l -> f x = g x) -> flat_map f l = flat_map g l.
Proof. induction l as [|x l IH]; intros H; cbn; [reflexivity|]. rewrite (H x) by now left. rewrite IH; [reflexivity|]. intros; apply H; now right. Qed.
End Lists.

(** [range(0, n, s)] is the list of multiples of [s] below [n]. *)
Lemma range_labels n s r : range_step (Z.of_nat n) s = Ok r -> exists k, s = PInt k /\ (0 < k -> map Z.to_nat r = labels n (Z.to_nat k)).
Proof.
  destruct s as [k|]; [|discriminate]. cbn [range_step]. destruct (Z.eqb_spec k 0) as [|Hk]; [discriminate|].
  intros H. exists k. split; [reflexivity|]. intros Hpos. destruct (Z.ltb_spec k 0); [lia|]. injection H; intros <-. clear H.
  rewrite map_map. induction n as [|n IH].
  - cbn [Z.of_nat]. replace (0 + k - 1) with (k - 1) by lia. rewrite Z.div_small by lia. reflexivity.
  - unfold labels in *. rewrite seq_S, filter_app. rewrite <- IH. clear IH. cbn [plus List.filter].
    assert (Hm : (n mod Z.to_nat k)%nat = Z.to_nat (Z.of_nat n mod k)).
    { rewrite <- (Nat2Z.id (n mod Z.to_nat k)%nat). f_equal. rewrite Nat2Z.inj_mod, Z2Nat.id by lia. reflexivity. }
    rewrite Hm. pose proof (Z.mod_pos_bound (Z.of_nat n) k Hpos). pose proof (Z.div_mod (Z.of_nat n) k ltac:(lia)).
    set (q := Z.of_nat n / k) in *. set (m := Z.of_nat n mod k) in *.
    destruct (Nat.eqb_spec (Z.to_nat m) 0) as [E|E].
    + assert (m = 0) by lia. replace ((Z.of_nat n + k - 1) / k) with q by (apply (Z.div_unique_pos _ _ _ (k - 1)); lia).
      replace ((Z.of_nat (S n) + k - 1) / k) with (q + 1) by (apply (Z.div_unique_pos _ _ _ 0); lia).
      assert (0 <= q) by (apply Z.div_pos; lia). replace (Z.to_nat (q + 1)) with (S (Z.to_nat q)) by lia.
      rewrite seq_S, map_app. f_equal. cbn [map plus]. f_equal. nia.
    + replace ((Z.of_nat n + k - 1) / k) with (q + 1) by (apply (Z.div_unique_pos _ _ _ (m - 1)); lia).
      replace ((Z.of_nat (S n) + k - 1) / k) with (q + 1) by (apply (Z.div_unique_pos _ _ _ m); lia).
      now rewrite app_nil_r.
Qed.

Section Keys.
Context {W P : Type} (sgn : P -> Z).
Notation filter := (filter W P).

(** Log-scale and spin of a frequential filter. *)
Definition fr_of (f : filter) : Z * Z := (f_j f, sgn (f_xi f)).
(** The filters come as a low-pass, then wavelets of positive frequency, then of negative frequency. *)
Definition spun (psis : list filter) : Prop := exists low pos neg, psis = low :: pos ++ neg /\ sgn (f_xi low) = 0 /\
  Forall (fun f => sgn (f_xi f) = 1) pos /\ Forall (fun f => sgn (f_xi f) = -1) neg.

Lemma nonneg_prefix psis : spun psis -> exists a b, psis = a ++ b /\ nonneg sgn psis = a /\
  Forall (fun f => 0 <= sgn (f_xi f)) a /\ Forall (fun f => sgn (f_xi f) < 0) b.
Proof.
  intros (low & pos & neg & -> & H0 & Hp & Hn). exists (low :: pos), neg. split; [reflexivity|].
  assert (Fa : Forall (fun f => 0 <= sgn (f_xi f)) (low :: pos)).
  { constructor; [lia|]. eapply Forall_impl; [|exact Hp]. cbn beta. intros; lia. }
  assert (Fb : Forall (fun f => sgn (f_xi f) < 0) neg) by (eapply Forall_impl; [|exact Hn]; cbn beta; intros; lia).
  split; [|split; assumption]. unfold nonneg. change (low :: pos ++ neg) with ((low :: pos) ++ neg). rewrite filter_app.
  assert (G1 : forall l, Forall (fun f => 0 <= sgn (f_xi f)) l -> List.filter (fun f : filter => 0 <=? sgn (f_xi f)) l = l).
  { induction 1 as [|f l Hf F IH]; [reflexivity|]. cbn [List.filter]. rewrite (proj2 (Z.leb_le _ _) Hf). now rewrite IH. }
  assert (G2 : forall l, Forall (fun f => sgn (f_xi f) < 0) l -> List.filter (fun f : filter => 0 <=? sgn (f_xi f)) l = []).
  { induction 1 as [|f l Hf F IH]; [reflexivity|]. cbn [List.filter]. rewrite (proj2 (Z.leb_gt _ _) Hf). exact IH. }
  now rewrite G1, G2, app_nil_r by assumption.
Qed.
Lemma enumerate_nonneg psis : spun psis ->
  enumerate (nonneg sgn psis) = List.filter (fun np => 0 <=? sgn (f_xi (snd np))) (enumerate psis).
Proof.
  intros H. destruct (nonneg_prefix psis H) as (a & b & -> & -> & Fa & Fb). unfold enumerate. rewrite enum_from_app, filter_app.
  clear H. generalize 0%nat as i. induction a as [|f a IH]; intros i.
  - cbn [enum_from List.filter app List.length]. replace (i + 0)%nat with i by lia. symmetry. clear -Fb. revert i.
    induction Fb as [|f l Hf F IH]; intros i; [reflexivity|]. cbn [enum_from List.filter snd]. rewrite (proj2 (Z.leb_gt _ _) Hf). apply IH.
  - inversion Fa; subst. cbn [enum_from List.filter snd List.length]. rewrite (proj2 (Z.leb_le _ _)) by assumption. cbn [app]. f_equal.
    replace (i + S (List.length a))%nat with (S i + List.length a)%nat by lia. now apply IH.
Qed.

Lemma smaller_spec (psi1 : list filter) j2 : smaller psi1 j2 = List.length (smaller_scales (map f_j psi1) j2).
Proof.
  unfold smaller, smaller_scales. rewrite map_length.
  assert (G : forall pre, List.length (List.filter (fun f => f_j f <? j2) psi1) =
    List.length (List.filter (fun n1 => nth n1 (map f_j (pre ++ psi1)) 0 <? j2) (seq (List.length pre) (List.length psi1)))).
  { induction psi1 as [|f l IH]; intros pre; [reflexivity|]. cbn [List.filter List.length seq].
    rewrite map_app, app_nth2 by (rewrite map_length; lia). rewrite map_length, Nat.sub_diag. cbn [map nth].
    specialize (IH (pre ++ [f])). rewrite <- app_assoc, app_length in IH. cbn [app List.length] in IH.
    replace (List.length pre + 1)%nat with (S (List.length pre)) in IH by lia. rewrite map_app in IH. cbn [map] in IH.
    destruct (f_j f <? j2); cbn [List.length]; now rewrite IH. }
  exact (G []).
Qed.
Lemma smaller_pos (psi1 : list filter) j2 : Nat.ltb 0 (smaller psi1 j2) = existsb (fun j1 => j1 <? j2) (map f_j psi1).
Proof.
  unfold smaller. induction psi1 as [|f l IH]; [reflexivity|]. cbn [List.filter map existsb].
  destruct (f_j f <? j2); [reflexivity|exact IH].
Qed.

(** Everything computed from the first-order slots of spun filters is computed from their descriptions. *)
Lemma slots1_map {C} psi1 psis (g : jpath unit -> list C) (h : nat -> list C) : spun psis ->
  (forall n psi, nth_error psis n = Some psi -> g (slot sgn [-1] [] (Z.of_nat (List.length psi1)) (n, psi)) = h n) ->
  flat_map g (slots1 sgn psi1 psis) = flat_map h (nonneg_spins (map fr_of psis)).
Proof.
  intros Hs Hg. unfold slots1. rewrite flat_map_map, enumerate_nonneg by exact Hs.
  rewrite <- flat_map_if_filter.
  rewrite (flat_map_ext_In _ (fun na => (fun n fr => if 0 <=? snd fr then h n else []) (fst na) (fr_of (snd na)))).
  2:{ intros [n psi] Hin. apply In_enumerate in Hin. cbn [fst snd fr_of]. now rewrite (Hg n psi Hin). }
  rewrite (flat_map_enumerate fr_of (0, 0) (fun n fr => if 0 <=? snd fr then h n else [])).
  unfold nonneg_spins. rewrite map_length. now rewrite <- flat_map_if_filter.
Qed.
Lemma slots2_map {C} psi1 psi2 psis (g : jpath unit -> list C) (h : nat -> nat -> list C) :
  (forall n2 f2 n psi, nth_error psi2 n2 = Some f2 -> nth_error psis n = Some psi -> (0 < smaller psi1 (f_j f2))%nat ->
     g (slot sgn [-1; f_j f2] [n2] (Z.of_nat (smaller psi1 (f_j f2))) (n, psi)) = h n2 n) ->
  flat_map g (slots2 sgn psi1 psi2 psis) =
  flat_map (fun n2 => flat_map (h n2) (seq 0 (List.length psis))) (second_orders (map (f_j : filter -> Z) psi1) (map (f_j : filter -> Z) psi2)).
Proof.
  intros Hg. unfold slots2. rewrite flat_map_flat_map.
  rewrite (flat_map_ext_In _ (fun na => (fun n2 j2 => if existsb (fun j1 => j1 <? j2) (map f_j psi1) then flat_map (h n2) (seq 0 (List.length psis)) else []) (fst na) (f_j (snd na)))).
  2:{ intros [n2 f2] Hin. apply In_enumerate in Hin. cbn [fst snd]. rewrite <- smaller_pos.
      destruct (Nat.ltb_spec 0 (smaller psi1 (f_j f2))) as [Hpos|]; [|reflexivity].
      rewrite flat_map_map. rewrite (flat_map_ext_In _ (fun na => (fun n (_ : Z * Z) => h n2 n) (fst na) (fr_of (snd na)))).
      - now rewrite (flat_map_enumerate fr_of (0, 0) (fun n _ => h n2 n)).
      - intros [n psi] Hn. apply In_enumerate in Hn. cbn [fst]. now apply Hg. }
  rewrite (flat_map_enumerate (f_j : filter -> Z) 0 (fun n2 j2 => if existsb (fun j1 => j1 <? j2) (map f_j psi1) then flat_map (h n2) (seq 0 (List.length psis)) else [])).
  unfold second_orders. rewrite map_length. now rewrite <- flat_map_if_filter.
Qed.

Lemma nth_fr psis n psi : nth_error psis n = Some psi -> nth n (map fr_of psis) (0, 0) = fr_of psi.
Proof. intros H. apply nth_error_nth. now apply map_nth_error. Qed.

Lemma joint_keys_ok psi1 psi2 psis ls_fr a_fr : spun psis ->
  [] :: map q_n (flat_map (fmt ls_fr a_fr "joint") (slots sgn psi1 psi2 psis)) =
  joint_keys (map f_j psi1) (map f_j psi2) (map fr_of psis).
Proof.
  intros Hs. unfold joint_keys, slots. rewrite flat_map_app, map_app, !map_flat_map. cbn [app]. f_equal.
  assert (E : forall p, map q_n (fmt ls_fr a_fr "joint" p) = [q_n p]).
  { intros p. unfold fmt, restride. cbn [String.eqb Ascii.eqb Bool.eqb map]. destruct a_fr; try (destruct (q_spin p =? 0)); reflexivity. }
  f_equal.
  - rewrite (slots1_map psi1 psis _ (fun n => [[n]])); [apply flat_map_single|exact Hs|].
    intros n psi _. rewrite E. reflexivity.
  - rewrite (slots2_map psi1 psi2 psis _ (fun n2 n => [[n2; n]])).
    + rewrite map_length. apply flat_map_ext_In. intros n2 _. apply flat_map_single.
    + intros n2 f2 n psi _ _ _. rewrite E. reflexivity.
Qed.

(** Labels of the rows of a slot. *)
Lemma row_stride_pos a_fr ls_fr frs n m : (0 < m)%nat -> (0 < row_stride a_fr ls_fr frs n m)%nat.
Proof.
  intros Hm. unfold row_stride. assert (forall k, (0 < 2 ^ k)%nat) by (intros k; pose proof (Nat.pow_nonzero 2 k); lia).
  destruct a_fr; try (destruct (_ =? 0)); auto.
Qed.
Lemma pow2_nonneg j : 0 <= j -> pow2 j = PInt (2 ^ j).
Proof. intros H. unfold pow2. destruct (Z.ltb_spec j 0); [lia|reflexivity]. Qed.
Lemma pow2_nat j : 0 <= j -> Z.to_nat (2 ^ j) = (2 ^ Z.to_nat j)%nat.
Proof. intros H. rewrite <- (Z2Nat.id j) at 1 by lia. rewrite <- (Nat2Z.id (2 ^ Z.to_nat j)). f_equal. now rewrite Nat2Z.inj_pow. Qed.

Lemma restride_row ls_fr a_fr wj wn m psis n psi : nth_error psis n = Some psi -> 0 <= f_j psi -> 0 <= ls_fr ->
  let q := restride ls_fr a_fr (slot sgn wj wn (Z.of_nat m) (n, psi)) in
  exists k, q_n1_stride q = PInt k /\ Z.to_nat k = row_stride a_fr ls_fr (map fr_of psis) n m /\ 0 <= k /\
    q_n1_max q = Z.of_nat m /\ q_n q = wn ++ [n].
Proof.
  intros Hn Hj Hl q. subst q. unfold row_stride, scale_at, spin_at. rewrite (nth_fr _ _ _ Hn). cbn [fr_of fst snd].
  assert (0 <= 2 ^ f_j psi /\ 0 <= 2 ^ ls_fr) as [] by (split; apply Z.pow_nonneg; lia).
  assert (E : forall b : bool, q_spin (slot sgn wj wn (Z.of_nat m) (n, psi)) = sgn (f_xi psi)) by reflexivity.
  unfold restride. destruct a_fr; rewrite ?E by exact true; try (destruct (sgn (f_xi psi) =? 0));
    cbn [set_stride q_n1_stride q_n1_max q_n slot fst snd]; rewrite ?pow2_nonneg by assumption; eexists;
    (split; [reflexivity|]); rewrite ?pow2_nat, ?Nat2Z.id by assumption; repeat split; try assumption; lia.
Qed.

Lemma fmt_time ls_fr a_fr wj wn m psis n psi : nth_error psis n = Some psi -> 0 <= f_j psi -> 0 <= ls_fr -> (0 < m)%nat ->
  map q_n (fmt ls_fr a_fr "time" (slot sgn wj wn (Z.of_nat m) (n, psi))) =
  map (fun n1 => n1 :: wn ++ [n]) (labels m (row_stride a_fr ls_fr (map fr_of psis) n m)).
Proof.
  intros Hn Hj Hl Hm. destruct (restride_row ls_fr a_fr wj wn m psis n psi Hn Hj Hl) as (k & E1 & E2 & E3 & E4 & E5).
  unfold fmt. cbn [String.eqb Ascii.eqb Bool.eqb]. rewrite E4, E1. pose proof (row_stride_pos a_fr ls_fr (map fr_of psis) n m Hm) as Hp.
  assert (Hk : 0 < k) by lia.
  destruct (range_step (Z.of_nat m) (PInt k)) as [r|e] eqn:Er.
  2:{ cbn [range_step] in Er. destruct (Z.eqb_spec k 0); [lia|]. destruct (Z.ltb_spec k 0); [lia|discriminate]. }
  destruct (range_labels _ _ _ Er) as (k' & Ek & Hr). injection Ek as <-. specialize (Hr Hk). rewrite E2 in Hr. rewrite <- Hr, !map_map.
  apply map_ext. intros n1. unfold label, set_n. cbn [q_n]. now rewrite E5.
Qed.

Lemma time_keys_ok (psi1 psi2 : list filter) psis ls_fr a_fr : spun psis -> Forall (fun f => 0 <= f_j f) psis -> 0 <= ls_fr -> psi1 <> [] ->
  [] :: map q_n (flat_map (fmt ls_fr a_fr "time") (slots sgn psi1 psi2 psis)) =
  time_keys (map f_j psi1) (map f_j psi2) (map fr_of psis) a_fr ls_fr.
Proof.
  intros Hs Hj Hl H1. unfold time_keys, slots. rewrite flat_map_app, map_app, !map_flat_map. cbn [app]. f_equal.
  assert (Hj' : forall n psi, nth_error psis n = Some psi -> 0 <= f_j psi).
  { intros n psi Hn. rewrite Forall_forall in Hj. apply Hj. eapply nth_error_In; eassumption. }
  f_equal.
  - rewrite map_length. apply (slots1_map psi1 psis _ _ Hs). intros n psi Hn.
    rewrite (fmt_time _ _ _ _ _ psis) by (eauto; (destruct psi1; [congruence|cbn; lia])). reflexivity.
  - rewrite (slots2_map psi1 psi2 psis _ (fun n2 n => let m := List.length (smaller_scales (map f_j psi1) (nth n2 (map f_j psi2) 0)) in
        map (fun n1 => [n1; n2; n]) (labels m (row_stride a_fr ls_fr (map fr_of psis) n m)))).
    + now rewrite map_length.
    + intros n2 f2 n psi Hn2 Hn Hm. rewrite (fmt_time _ _ _ _ _ psis) by eauto. rewrite (nth_error_nth _ _ 0 (map_nth_error f_j _ _ Hn2)).
      rewrite <- smaller_spec. reflexivity.
Qed.
End Keys.

(** ** The keys of the specification are distinct *)
Lemma NoDup_map_inj {A B} (f : A -> B) l : (forall a b, In a l -> In b l -> f a = f b -> a = b) -> NoDup l -> NoDup (map f l).
Proof.
  intros H N. induction N as [|x l Hx N IH]; [constructor|]. cbn. constructor.
  - rewrite in_map_iff. intros (y & E & Hy). apply H in E; [subst; tauto|now right|now left].
  - apply IH. intros; apply H; try right; assumption.
Qed.
Lemma NoDup_app {A} (l l' : list A) : NoDup l -> NoDup l' -> (forall x, In x l -> ~ In x l') -> NoDup (l ++ l').
Proof.
  intros N N' H. induction N as [|x l Hx N IH]; [exact N'|]. cbn. constructor.
  - rewrite in_app_iff. intros [Hi|Hi]; [tauto|]. exact (H x (or_introl eq_refl) Hi).
  - apply IH. intros y Hy. apply H. now right.
Qed.
Lemma NoDup_flat_map {A B} (f : A -> list B) (key : B -> A) l : (forall a b, In a l -> In b (f a) -> key b = a) ->
  (forall a, In a l -> NoDup (f a)) -> NoDup l -> NoDup (flat_map f l).
Proof.
  intros Hk Hf N. induction N as [|x l Hx N IH]; [constructor|]. cbn. apply NoDup_app; [apply Hf; now left|apply IH|].
  - intros; apply Hk; [now right|assumption].
  - intros; apply Hf; now right.
  - intros b Hb Hb'. apply in_flat_map in Hb' as (a & Ha & Hb'). apply Hk in Hb; [|now left]. apply Hk in Hb'; [|now right]. congruence.
Qed.
Lemma labels_NoDup m s : NoDup (labels m s). Proof. apply NoDup_filter, seq_NoDup. Qed.

Lemma joint_keys_NoDup j1s j2s frs : NoDup (joint_keys j1s j2s frs).
Proof.
  unfold joint_keys. repeat apply NoDup_app.
  - repeat constructor; intros [].
  - apply NoDup_map_inj; [congruence|]. apply NoDup_filter, seq_NoDup.
  - apply (NoDup_flat_map _ (fun k => nth 0 k 0%nat)).
    + intros a b _ Hb. apply in_map_iff in Hb as (n & <- & _). reflexivity.
    + intros a _. apply NoDup_map_inj; [congruence|apply seq_NoDup].
    + apply NoDup_filter, seq_NoDup.
  - intros k Hk Hk'. apply in_map_iff in Hk as (n & <- & _). apply in_flat_map in Hk' as (n2 & _ & Hk').
    apply in_map_iff in Hk' as (n' & E & _). discriminate.
  - intros k [<-|[]] Hk. apply in_app_iff in Hk as [Hk|Hk].
    + apply in_map_iff in Hk as (n & E & _). discriminate.
    + apply in_flat_map in Hk as (n2 & _ & Hk'). apply in_map_iff in Hk' as (n' & E & _). discriminate.
Qed.
Lemma time_keys_NoDup j1s j2s frs a_fr ls_fr : NoDup (time_keys j1s j2s frs a_fr ls_fr).
Proof.
  unfold time_keys. repeat apply NoDup_app.
  - repeat constructor; intros [].
  - apply (NoDup_flat_map _ (fun k => nth 1 k 0%nat)).
    + intros a b _ Hb. apply in_map_iff in Hb as (n & <- & _). reflexivity.
    + intros a _. apply NoDup_map_inj; [congruence|apply labels_NoDup].
    + apply NoDup_filter, seq_NoDup.
  - apply (NoDup_flat_map _ (fun k => nth 1 k 0%nat)).
    + intros a b _ Hb. cbv zeta in Hb. apply in_flat_map in Hb as (n & _ & Hb). apply in_map_iff in Hb as (n1 & <- & _). reflexivity.
    + intros a _. cbv zeta. apply (NoDup_flat_map _ (fun k => nth 2 k 0%nat)).
      * intros n b _ Hb. apply in_map_iff in Hb as (n1 & <- & _). reflexivity.
      * intros n _. apply NoDup_map_inj; [congruence|apply labels_NoDup].
      * apply seq_NoDup.
    + apply NoDup_filter, seq_NoDup.
  - intros k Hk Hk'. apply in_flat_map in Hk as (n & _ & Hk). apply in_map_iff in Hk as (n1 & <- & _).
    apply in_flat_map in Hk' as (n2 & _ & Hk'). cbv zeta in Hk'. apply in_flat_map in Hk' as (n' & _ & Hk').
    apply in_map_iff in Hk' as (? & E & _). discriminate.
  - intros k [<-|[]] Hk. apply in_app_iff in Hk as [Hk|Hk].
    + apply in_flat_map in Hk as (n & _ & Hk). apply in_map_iff in Hk as (n1 & E & _). discriminate.
    + apply in_flat_map in Hk as (n2 & _ & Hk'). cbv zeta in Hk'. apply in_flat_map in Hk' as (n' & _ & Hk').
      apply in_map_iff in Hk' as (? & E & _). discriminate.
Qed.
