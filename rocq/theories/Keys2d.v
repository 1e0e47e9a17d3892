(** Layout of the 2-D filter bank, keys and number of the paths. *)
From Coq Require Import String Reals ZArith List Lia Arith Bool.
From Coquelicot Require Import Complex.
From Verif Require Import Base BaseProofs NdArray NdProofs Backend Utils1dProofs FactoryProofs Rows1d ComplexOps Backend2d Core2d FilterBank2d Frontend2d Images Rows2d Construct1d Pad2d Eval2d JtfsFmt.
Import ListNotations.
Local Open Scope nat_scope.

Lemma zrange_seq n : zrange 0 n = map Z.of_nat (seq 0 (Z.to_nat n)).
Proof. unfold zrange. rewrite Z.sub_0_r. apply map_ext. reflexivity. Qed.
Lemma seq_add n b k : seq (b + k) n = map (Nat.add b) (seq k n).
Proof. revert k. induction n as [|n IH]; intros k; [reflexivity|]. cbn [seq map]. f_equal. rewrite <- IH. f_equal. lia. Qed.
(** A double loop, as a single loop. *)
Lemma double_loop {A} (f : nat -> nat -> A) J L : flat_map (fun j => map (f j) (seq 0 L)) (seq 0 J) = map (fun n => f (n / L) (n mod L)) (seq 0 (J * L)).
Proof.
  induction J as [|J IH]; [reflexivity|]. rewrite seq_S, flat_map_app, IH. cbn [plus flat_map]. rewrite app_nil_r.
  replace (S J * L) with (J * L + L) by lia. rewrite seq_app, map_app. f_equal. cbn [plus].
  rewrite <- (Nat.add_0_r (J * L)), seq_add, !map_map. apply map_ext_in. intros i Hi. apply in_seq in Hi.
  rewrite Nat.div_add_l by lia. rewrite (Nat.div_small i) by lia. rewrite Nat.add_0_r. rewrite Nat.add_comm, Nat.mod_add by lia. now rewrite Nat.mod_small by lia.
Qed.
Lemma bank_list M N J L : snd (filter_bank M N J L) = map (fun n => psi_2d M N J L (Z.of_nat (n / Z.to_nat L)) (Z.of_nat (n mod Z.to_nat L))) (seq 0 (Z.to_nat J * Z.to_nat L)).
Proof.
  unfold filter_bank. cbn [snd]. rewrite !zrange_seq. rewrite <- (double_loop (fun j t => psi_2d M N J L (Z.of_nat j) (Z.of_nat t))).
  rewrite !flat_map_concat_map, map_map. f_equal. apply map_ext. intros j. now rewrite map_map.
Qed.
Lemma bank_enum M N J L : enumerate (snd (filter_bank M N J L)) =
  map (fun n => (n, psi_2d M N J L (Z.of_nat (n / Z.to_nat L)) (Z.of_nat (n mod Z.to_nat L)))) (seq 0 (Z.to_nat J * Z.to_nat L)).
Proof. rewrite bank_list. apply enumerate_map_seq. Qed.

(** ** Keys *)
Definition key2 {X} (q : path2 X) : list Z * list nat * list Z := (r_j q, r_n q, r_theta q).
Definition key_of (L : nat) (ns : list nat) : list Z * list nat * list Z :=
  (map (fun n => Z.of_nat (n / L)) ns, ns, map (fun n => Z.of_nat (n mod L)) ns).
(** The expected indices, in order. *)
Definition second_indices (J L : nat) : list (list nat) :=
  flat_map (fun n1 => map (fun n2 => [n1; n2]) (List.filter (fun n2 => n1 / L <? n2 / L) (seq 0 (J * L)))) (seq 0 (J * L)).
Definition indices2 (J L : nat) (max_order : Z) : list (list nat) :=
  [] :: map (fun n => [n]) (seq 0 (J * L)) ++ (if (max_order <? 2)%Z then [] else second_indices J L).
Lemma filter_map {A B} (f : A -> B) (P : B -> bool) l : List.filter P (map f l) = map f (List.filter (fun a => P (f a)) l).
Proof. induction l as [|a l IH]; [reflexivity|]. cbn. destruct (P (f a)); cbn; now rewrite IH. Qed.
Lemma keys_paths (o : ops C) M N J L Mp Np pre ims max_order :
  map key2 (all_paths o J (fst (filter_bank M N J L)) (snd (filter_bank M N J L)) Mp Np pre ims max_order) =
  map (key_of (Z.to_nat L)) (indices2 (Z.to_nat J) (Z.to_nat L) max_order).
Proof.
  unfold all_paths, indices2. rewrite bank_enum. cbn [map]. f_equal. rewrite !map_app, !map_map. f_equal.
  destruct (max_order <? 2)%Z; [reflexivity|]. unfold second_indices. rewrite !flat_map_concat_map, !concat_map, !map_map. f_equal.
  apply map_ext. intros n1. rewrite !map_map. rewrite filter_map, map_map. cbn [fst snd].
  assert (E : forall n2, later (n1, psi_2d M N J L (Z.of_nat (n1 / Z.to_nat L)) (Z.of_nat (n1 mod Z.to_nat L))) (n2, psi_2d M N J L (Z.of_nat (n2 / Z.to_nat L)) (Z.of_nat (n2 mod Z.to_nat L)))
              = (n1 / Z.to_nat L <? n2 / Z.to_nat L)).
  { intros n2. unfold later. cbn [snd psi_2d g_j]. destruct (Z.ltb_spec (Z.of_nat (n1 / Z.to_nat L)) (Z.of_nat (n2 / Z.to_nat L))), (Nat.ltb_spec (n1 / Z.to_nat L) (n2 / Z.to_nat L)); lia. }
  erewrite filter_ext by exact E. reflexivity.
Qed.

(** ** Counting *)
Lemma filter_ge a n : List.filter (fun i => a <=? i) (seq 0 n) = seq a (n - a).
Proof.
  destruct (Nat.le_gt_cases a n) as [H|H].
  - replace n with (a + (n - a)) at 1 by lia. rewrite seq_app, filter_app. cbn [plus].
    assert (E1 : forall k b, b + k <= a -> List.filter (fun i => a <=? i) (seq b k) = []).
    { induction k as [|k IH]; intros b Hb; [reflexivity|]. cbn. destruct (Nat.leb_spec a b); [lia|]. apply IH. lia. }
    assert (E2 : forall k b, a <= b -> List.filter (fun i => a <=? i) (seq b k) = seq b k).
    { induction k as [|k IH]; intros b Hb; [reflexivity|]. cbn. destruct (Nat.leb_spec a b); [|lia]. f_equal. apply IH. lia. }
    rewrite E1, E2 by lia. reflexivity.
  - replace (n - a) with 0 by lia. assert (E1 : forall k b, b + k <= a -> List.filter (fun i => a <=? i) (seq b k) = []).
    { induction k as [|k IH]; intros b Hb; [reflexivity|]. cbn. destruct (Nat.leb_spec a b); [lia|]. apply IH. lia. }
    apply E1. lia.
Qed.
Lemma later_count J L n1 : 0 < L -> List.length (List.filter (fun n2 => n1 / L <? n2 / L) (seq 0 (J * L))) = (J - 1 - n1 / L) * L.
Proof.
  intros HL. rewrite (filter_ext _ (fun n2 => (n1 / L + 1) * L <=? n2)).
  - rewrite filter_ge, seq_length. replace (J - 1 - n1 / L) with (J - (n1 / L + 1)) by lia. now rewrite Nat.mul_sub_distr_r.
  - intros n2. pose proof (Nat.div_le_lower_bound n2 L (n1 / L + 1)). pose proof (Nat.mul_div_le n2 L).
    destruct (Nat.ltb_spec (n1 / L) (n2 / L)), (Nat.leb_spec ((n1 / L + 1) * L) n2); try reflexivity; exfalso; nia.
Qed.
Lemma sum_blocks (g : nat -> nat) J L : list_sum (map (fun n => g (n / L)) (seq 0 (J * L))) = L * list_sum (map g (seq 0 J)).
Proof.
  induction J as [|J IH]; [cbn; lia|]. replace (S J * L) with (J * L + L) by lia. rewrite seq_app, map_app, list_sum_app, IH, seq_S, map_app, list_sum_app. cbn [plus map list_sum fold_right].
  rewrite Nat.mul_add_distr_l. f_equal. rewrite Nat.add_0_r.
  assert (E : forall k, k <= L -> list_sum (map (fun n => g (n / L)) (seq (J * L) k)) = k * g J).
  { induction k as [|k IHk]; intros Hk; [reflexivity|]. rewrite seq_S, map_app, list_sum_app, IHk by lia. cbn [map list_sum fold_right].
    rewrite Nat.div_add_l by lia. rewrite (Nat.div_small k) by lia. rewrite !Nat.add_0_r. lia. }
  apply E. lia.
Qed.
Lemma sum_down J : 2 * list_sum (map (fun j => J - 1 - j) (seq 0 J)) = J * (J - 1).
Proof.
  assert (E : forall n a, (forall j, j < n -> True) -> 2 * list_sum (map (fun j => a - j) (seq 0 n)) + n * n = n * (2 * a + 1) + 0 \/ a + 1 < n).
  { induction n as [|n IH]; intros a _; [left; reflexivity|]. destruct (IH a (fun _ _ => I)) as [E|E]; [|right; lia].
    destruct (Nat.le_gt_cases n a); [left|right; lia]. rewrite seq_S, map_app, list_sum_app. cbn [map list_sum fold_right plus]. nia. }
  destruct J as [|J]; [reflexivity|]. replace (S J - 1) with J by lia. destruct (E (S J) J (fun _ _ => I)) as [H|H]; [|lia]. nia.
Qed.
Lemma length_flat_map {A B} (f : A -> list B) l : List.length (flat_map f l) = list_sum (map (fun a => List.length (f a)) l).
Proof. induction l as [|a l IH]; [reflexivity|]. cbn [flat_map map list_sum fold_right]. rewrite app_length, IH. reflexivity. Qed.
Lemma second_count J L : 2 * List.length (second_indices J L) = L * L * (J * (J - 1)).
Proof.
  destruct (Nat.eq_dec L 0) as [->|HL]; [unfold second_indices; rewrite Nat.mul_0_r; reflexivity|].
  unfold second_indices. rewrite length_flat_map.
  rewrite (map_ext _ (fun n1 => (J - 1 - n1 / L) * L)) by (intros n1; rewrite map_length; apply later_count; lia).
  rewrite (sum_blocks (fun j => (J - 1 - j) * L)). rewrite <- (sum_down J).
  assert (E : forall l, list_sum (map (fun j => (J - 1 - j) * L) l) = L * list_sum (map (fun j => J - 1 - j) l)).
  { induction l as [|a l IH]; cbn [map list_sum fold_right]; [lia|]. fold (list_sum (map (fun j => (J - 1 - j) * L) l)) (list_sum (map (fun j => J - 1 - j) l)). rewrite IH. lia. }
  rewrite E. lia.
Qed.
Lemma count2 J L mo : List.length (indices2 J L mo) = 1 + J * L + (if (mo <? 2)%Z then 0 else List.length (second_indices J L)).
Proof. unfold indices2. cbn [List.length]. rewrite app_length, map_length, seq_length. destruct (mo <? 2)%Z; cbn; lia. Qed.
Lemma second_spec J L ns : In ns (second_indices J L) <-> exists n1 n2, ns = [n1; n2] /\ n1 < J * L /\ n2 < J * L /\ n1 / L < n2 / L.
Proof.
  unfold second_indices. rewrite in_flat_map. split.
  - intros (n1 & H1 & Hin). apply in_map_iff in Hin as (n2 & <- & Hin). apply filter_In in Hin as [H2 Hlt]. apply in_seq in H1, H2. apply Nat.ltb_lt in Hlt. exists n1, n2. repeat split; lia.
  - intros (n1 & n2 & -> & H1 & H2 & Hlt). exists n1. split; [apply in_seq; lia|]. apply in_map_iff. exists n2. split; [reflexivity|]. apply filter_In. split; [apply in_seq; lia|]. now apply Nat.ltb_lt.
Qed.
Lemma NoDup_second J L : NoDup (second_indices J L).
Proof.
  unfold second_indices. generalize (seq_NoDup (J * L) 0). generalize (seq 0 (J * L)) at 1 3 as l1. intros l1 H. induction H as [|a l Ha Hl IH]; [constructor|]. cbn [flat_map].
  assert (A : NoDup (map (fun n2 => [a; n2]) (List.filter (fun n2 => a / L <? n2 / L) (seq 0 (J * L))))).
  { apply FinFun.Injective_map_NoDup; [intros x y E; now injection E|]. apply NoDup_filter, seq_NoDup. }
  revert A. generalize (List.filter (fun n2 => a / L <? n2 / L) (seq 0 (J * L))) as f. intros f A.
  induction f as [|b f IHf]; [exact IH|]. cbn [map app]. cbn [map] in A. apply NoDup_cons_iff in A as [A1 A2]. constructor; [|now apply IHf].
  rewrite in_app_iff. intros [Hin|Hin]; [contradiction|]. apply in_flat_map in Hin as (n1 & Hn1 & Hin). apply in_map_iff in Hin as (n2 & E & _). injection E as -> _. contradiction.
Qed.
Lemma NoDup_indices J L mo : NoDup (indices2 J L mo).
Proof.
  unfold indices2. constructor.
  - rewrite in_app_iff. intros [H|H]; [apply in_map_iff in H as (? & E & _); discriminate|].
    destruct (mo <? 2)%Z; [destruct H|]. apply second_spec in H as (? & ? & E & _). discriminate.
  - assert (A : NoDup (map (fun n => [n]) (seq 0 (J * L)))) by (apply FinFun.Injective_map_NoDup; [intros x y E; now injection E|apply seq_NoDup]).
    revert A. generalize (seq 0 (J * L)) as l. intros l A. induction l as [|a l IH]; cbn [map app].
    + destruct (mo <? 2)%Z; [constructor|apply NoDup_second].
    + cbn [map] in A. apply NoDup_cons_iff in A as [A1 A2]. constructor; [|now apply IH]. rewrite in_app_iff. intros [H|H]; [contradiction|].
      destruct (mo <? 2)%Z; [destruct H|]. apply second_spec in H as (? & ? & E & _). discriminate.
Qed.
