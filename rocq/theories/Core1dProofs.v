(** Structure of the list of paths produced by [scattering1d], for an arbitrary backend. *)
From Coq Require Import ZArith List Bool Lia Permutation Sorted Arith.
From Verif Require Import Base BaseProofs NdArray Backend Core1d Utils1d Frontend1d Spec1d.
Import ListNotations.
Local Open Scope Z_scope.
Local Open Scope res_scope.

(** ** The order on keys *)
Local Close Scope Z_scope.
Lemma key_leb_total a b : key_leb a b = true \/ key_leb b a = true.
Proof.
  unfold key_leb. destruct (Nat.ltb (List.length a) (List.length b)) eqn:E1; [auto|].
  destruct (Nat.ltb (List.length b) (List.length a)) eqn:E2; [auto|]. apply lex_leb_total.
Qed.
Lemma key_leb_antisym a b : key_leb a b = true -> key_leb b a = true -> a = b.
Proof.
  unfold key_leb. destruct (Nat.ltb (List.length a) (List.length b)) eqn:E1;
  destruct (Nat.ltb (List.length b) (List.length a)) eqn:E2;
    rewrite ?Nat.ltb_lt, ?Nat.ltb_ge in *; try lia; try discriminate. apply lex_leb_antisym.
Qed.
Lemma key_leb_trans a b c : key_leb a b = true -> key_leb b c = true -> key_leb a c = true.
Proof.
  unfold key_leb.
  destruct (Nat.ltb (List.length a) (List.length b)) eqn:E1;
  destruct (Nat.ltb (List.length b) (List.length a)) eqn:E2;
  destruct (Nat.ltb (List.length b) (List.length c)) eqn:E3;
  destruct (Nat.ltb (List.length c) (List.length b)) eqn:E4;
  destruct (Nat.ltb (List.length a) (List.length c)) eqn:E5;
  destruct (Nat.ltb (List.length c) (List.length a)) eqn:E6; auto; try discriminate;
    rewrite ?Nat.ltb_lt, ?Nat.ltb_ge in *; try lia. apply lex_leb_trans.
Qed.

Lemma isort_by_key {A} (key : A -> list nat) (l : list A) (keys : list (list nat)) :
  Permutation (map key l) keys ->
  StronglySorted (fun a b => key_leb a b = true) keys ->
  map key (isort (fun p q => key_leb (key p) (key q)) l) = keys.
Proof.
  intros P S. eapply sorted_unique with (R := fun a b => key_leb a b = true).
  - intros; now apply key_leb_antisym.
  - apply map_sorted. apply (isort_sorted (fun p q => key_leb (key p) (key q))).
    + intros; apply key_leb_total.
    + intros x y z; apply key_leb_trans.
  - exact S.
  - rewrite isort_perm. exact P.
Qed.

Lemma In_larger j1 j2s n2 : In n2 (larger j1 j2s) <-> exists j2, nth_error j2s n2 = Some j2 /\ (j1 < j2)%Z.
Proof.
  unfold larger. rewrite filter_In, in_seq. split.
  - intros [H1 H2]. apply Z.ltb_lt in H2. exists (nth n2 j2s 0%Z).
    split; [apply nth_error_nth'; lia|exact H2].
  - intros (j2 & H1 & H2). pose proof (nth_error_nth _ _ 0%Z H1) as E.
    assert (n2 < List.length j2s)
      by (apply nth_error_Some; congruence).
    split; [lia|]. apply Z.ltb_lt. rewrite E. exact H2.
Qed.

Lemma In_expected_1 j1s j2s mo n1 : In [n1] (expected_keys mo j1s j2s) <-> (n1 < List.length j1s).
Proof.
  unfold expected_keys, keys0, keys1, keys2. rewrite !in_app_iff. split.
  - intros [H|[H|H]].
    + destruct H as [H|[]]; discriminate.
    + apply in_map_iff in H. destruct H as (x & E & H). injection E; intros ->. apply in_seq in H. lia.
    + destruct (Nat.leb 2 mo); [|destruct H]. apply in_flat_map in H. destruct H as (x & _ & H).
      apply in_map_iff in H. destruct H as (y & E & _). discriminate.
  - intros H. right; left. apply in_map_iff. exists n1. split; [reflexivity|]. apply in_seq. lia.
Qed.

Lemma In_expected_2 j1s j2s mo n1 n2 : In [n1; n2] (expected_keys mo j1s j2s) <->
  2 <= mo /\ exists j1 j2, nth_error j1s n1 = Some j1 /\ nth_error j2s n2 = Some j2 /\ (j1 < j2)%Z.
Proof.
  unfold expected_keys, keys0, keys1, keys2. rewrite !in_app_iff. split.
  - intros [H|[H|H]].
    + destruct H as [H|[]]; discriminate.
    + apply in_map_iff in H. destruct H as (x & E & H). discriminate.
    + destruct (Nat.leb 2 mo) eqn:Em; [|destruct H]. apply Nat.leb_le in Em. split; [assumption|].
      apply in_flat_map in H. destruct H as (x & Hx & H). apply in_seq in Hx.
      apply in_map_iff in H. destruct H as (y & E & H). injection E; intros -> ->.
      apply In_larger in H. destruct H as (j2 & H2 & Hj). exists (nth n1 j1s 0%Z), j2.
      split; [apply nth_error_nth'; lia|]. auto.
  - intros (Hm & j1 & j2 & H1 & H2 & Hj). right; right.
    apply Nat.leb_le in Hm. rewrite Hm. apply in_flat_map. exists n1. split.
    + apply in_seq. assert (n1 < List.length j1s) by (apply nth_error_Some; congruence). lia.
    + apply (in_map (fun n2 => [n1; n2])). apply In_larger. exists j2. rewrite (nth_error_nth _ _ 0%Z H1). auto.
Qed.

Lemma In_expected_length j1s j2s mo k : In k (expected_keys mo j1s j2s) ->
  k = [] \/ (exists n1, k = [n1]) \/ (exists n1 n2, k = [n1; n2]).
Proof.
  unfold expected_keys, keys0, keys1, keys2. rewrite !in_app_iff. intros [H|[H|H]].
  - destruct H as [H|[]]; auto.
  - apply in_map_iff in H. destruct H as (x & E & H). subst. eauto.
  - destruct (Nat.leb 2 mo); [|destruct H]. apply in_flat_map in H. destruct H as (x & _ & H).
    apply in_map_iff in H. destruct H as (y & E & _). subst. eauto.
Qed.

(** strict order on keys *)
Definition klt (a b : list nat) : Prop := key_leb a b = true /\ a <> b.

Lemma klt_1 i j : i < j -> klt [i] [j].
Proof.
  intros H. split; [|intros E; injection E; lia]. unfold key_leb. cbn [List.length].
  rewrite Nat.ltb_irrefl. cbn [lex_leb]. apply Nat.ltb_lt in H. now rewrite H.
Qed.
Lemma klt_2 a b c d : a < c \/ (a = c /\ b < d) -> klt [a; b] [c; d].
Proof.
  intros H. split; [|intros E; injection E; lia]. unfold key_leb. cbn [List.length].
  rewrite Nat.ltb_irrefl. cbn [lex_leb].
  destruct (Nat.ltb a c) eqn:E1; [reflexivity|]. apply Nat.ltb_ge in E1.
  destruct (Nat.ltb c a) eqn:E2; [apply Nat.ltb_lt in E2; lia|].
  destruct H as [H|[-> H]]; [lia|]. apply Nat.ltb_lt in H. now rewrite H.
Qed.
Lemma klt_len a b : List.length a < List.length b -> klt a b.
Proof.
  intros H. split; [|intros ->; lia]. unfold key_leb. apply Nat.ltb_lt in H. now rewrite H.
Qed.

Lemma StronglySorted_filter {A} (R : A -> A -> Prop) f l :
  StronglySorted R l -> StronglySorted R (List.filter f l).
Proof.
  induction 1 as [|x l S IH F]; cbn; [constructor|].
  destruct (f x); [|assumption]. constructor; [assumption|].
  apply Forall_forall. intros y Hy. apply filter_In in Hy. rewrite Forall_forall in F. now apply F.
Qed.
Lemma seq_sorted a n : StronglySorted lt (seq a n).
Proof.
  revert a. induction n; intros a; cbn; constructor; [apply IHn|].
  apply Forall_forall. intros x Hx. apply in_seq in Hx. lia.
Qed.
Lemma larger_sorted j1 j2s : StronglySorted lt (larger j1 j2s).
Proof. apply StronglySorted_filter, seq_sorted. Qed.

Lemma StronglySorted_flat_map {A B} (RA : A -> A -> Prop) (R : B -> B -> Prop) (f : A -> list B) l :
  StronglySorted RA l -> (forall x, In x l -> StronglySorted R (f x)) ->
  (forall x y u v, RA x y -> In u (f x) -> In v (f y) -> R u v) ->
  StronglySorted R (flat_map f l).
Proof.
  induction 1 as [|x l S IH F]; intros H1 H2; cbn; [constructor|].
  apply StronglySorted_app.
  - apply H1. left; reflexivity.
  - apply IH; [intros; apply H1; right; assumption|exact H2].
  - intros u v Hu Hv. apply in_flat_map in Hv. destruct Hv as (y & Hy & Hv).
    rewrite Forall_forall in F. exact (H2 x y u v (F y Hy) Hu Hv).
Qed.

Lemma StronglySorted_map {A B} (RA : A -> A -> Prop) (R : B -> B -> Prop) (f : A -> B) l :
  StronglySorted RA l -> (forall x y, RA x y -> R (f x) (f y)) -> StronglySorted R (map f l).
Proof.
  induction 1 as [|x l S IH F]; intros H; cbn; constructor; [now apply IH|].
  rewrite Forall_map. eapply Forall_impl; [|exact F]. intros; now apply H.
Qed.

Lemma keys2_sorted j1s j2s : StronglySorted klt (keys2 j1s j2s).
Proof.
  unfold keys2. eapply StronglySorted_flat_map with (RA := lt).
  - apply seq_sorted.
  - intros n1 _. eapply StronglySorted_map; [apply larger_sorted|]. intros. apply klt_2. auto.
  - intros x y u v H Hu Hv. apply in_map_iff in Hu, Hv.
    destruct Hu as (a & <- & _). destruct Hv as (b & <- & _). apply klt_2. auto.
Qed.

Lemma expected_sorted mo j1s j2s : StronglySorted klt (expected_keys mo j1s j2s).
Proof.
  unfold expected_keys. apply StronglySorted_app.
  - constructor; constructor.
  - apply StronglySorted_app.
    + eapply StronglySorted_map; [apply seq_sorted|]. intros; now apply klt_1.
    + destruct (Nat.leb 2 mo); [apply keys2_sorted|constructor].
    + intros x y Hx Hy. unfold keys1 in Hx. apply in_map_iff in Hx. destruct Hx as (a & <- & _).
      destruct (Nat.leb 2 mo); [|destruct Hy]. unfold keys2 in Hy. apply in_flat_map in Hy.
      destruct Hy as (b & _ & Hy). apply in_map_iff in Hy. destruct Hy as (c & <- & _).
      apply klt_len. cbn. lia.
  - intros x y [<-|[]] Hy. apply in_app_iff in Hy. apply klt_len. destruct Hy as [Hy|Hy].
    + unfold keys1 in Hy. apply in_map_iff in Hy. destruct Hy as (a & <- & _). cbn. lia.
    + destruct (Nat.leb 2 mo); [|destruct Hy]. unfold keys2 in Hy. apply in_flat_map in Hy.
      destruct Hy as (b & _ & Hy). apply in_map_iff in Hy. destruct Hy as (c & <- & _). cbn. lia.
Qed.

Lemma klt_le_sorted l : StronglySorted klt l -> StronglySorted (fun a b => key_leb a b = true) l.
Proof.
  induction 1 as [|x l S IH F]; constructor; [assumption|].
  eapply Forall_impl; [|exact F]. intros y [H _]. exact H.
Qed.
Lemma klt_NoDup l : StronglySorted klt l -> NoDup l.
Proof.
  induction 1 as [|x l S IH F]; constructor; [|assumption].
  intros H. rewrite Forall_forall in F. destruct (F x H) as [_ H']. congruence.
Qed.
Lemma expected_NoDup mo j1s j2s : NoDup (expected_keys mo j1s j2s).
Proof. apply klt_NoDup, expected_sorted. Qed.

(** ** The generator *)
Section Gen.
Context {X W P : Type} (be : backend X W).

(** Keys in generation (depth-first) order. *)
Definition gen_keys (j1s : list Z) (j2o : option (list Z)) : list (list nat) :=
  [] :: flat_map (fun n1 => [n1] ::
     match j2o with
     | Some j2s => map (fun n2 => [n1; n2]) (larger (nth n1 j1s 0%Z) j2s)
     | None => []
     end) (seq 0 (List.length j1s)).

Lemma gen_keys_perm j1s j2s : Permutation (gen_keys j1s (Some j2s)) (expected_keys 2 j1s j2s).
Proof.
  unfold gen_keys, expected_keys, keys0. cbn [Nat.leb app]. constructor.
  rewrite (perm_flat_map_cons (fun n1 => [n1]) (fun n1 => map (fun n2 => [n1; n2]) (larger (nth n1 j1s 0%Z) j2s))).
  reflexivity.
Qed.
Lemma gen_keys_none j1s : gen_keys j1s None = expected_keys 1 j1s [].
Proof.
  unfold gen_keys, expected_keys, keys0, keys1. cbn [Nat.leb app]. f_equal. rewrite app_nil_r.
  induction (seq 0 (List.length j1s)); cbn; [reflexivity|]. now rewrite IHl.
Qed.

Lemma order0_keys (phi : filter W P) U0 U0h ls al p :
  order0 be phi U0 U0h ls al = Ok p -> p_n p = [] /\ p_j p = [].
Proof.
  unfold order0. destruct al.
  - intros H. inv_binds H. injection H; intros <-. auto.
  - intros H. injection H; intros <-. auto.
Qed.

Lemma order2_keys (phi : filter W P) U1h n1 j1 k1 ls al n2 psi2 l :
  order2 be phi U1h n1 j1 k1 ls al (n2, psi2) = Ok l ->
  if (j1 <? f_j psi2)%Z then exists p, l = [p] /\ p_n p = [n1; n2] /\ p_j p = [j1; f_j psi2] else l = [].
Proof.
  unfold order2. destruct (j1 <? f_j psi2)%Z.
  - destruct al; intros H; inv_binds H; injection H; intros <-; eauto.
  - intros H; injection H; intros <-. reflexivity.
Qed.

Lemma flat_map_filter_map {A B} (f : A -> bool) (g : A -> B) l :
  flat_map (fun x => if f x then [g x] else []) l = map g (List.filter f l).
Proof.
  induction l as [|x l IH]; cbn; [reflexivity|]. destruct (f x); cbn; now rewrite IH.
Qed.

Lemma order2_all_keys (phi : filter W P) U1h n1 j1 k1 ls al psi2 ll :
  mapM (order2 be phi U1h n1 j1 k1 ls al) (enumerate psi2) = Ok ll ->
  map p_n (concat ll) = map (fun n2 => [n1; n2]) (larger j1 (map f_j psi2)) /\
  Forall (fun p => exists n2, p_n p = [n1; n2] /\ exists f, nth_error psi2 n2 = Some f /\ p_j p = [j1; f_j f]
            /\ (j1 < f_j f)%Z /\ order2 be phi U1h n1 j1 k1 ls al (n2, f) = Ok [p]) (concat ll).
Proof.
  intros H. apply mapM_ok in H. split.
  - assert (E : map p_n (concat ll) =
      flat_map (fun np => if (j1 <? f_j (snd np))%Z then [[n1; fst np]] else []) (enumerate psi2)).
    { revert H. generalize (enumerate psi2). intros l. induction 1 as [|[n2 f] y l ll Hy F IH]; [reflexivity|].
      cbn [concat flat_map fst snd]. rewrite map_app, IH. f_equal.
      apply order2_keys in Hy. destruct (j1 <? f_j f)%Z.
      - destruct Hy as (p & -> & E & _). cbn. now rewrite E.
      - now rewrite Hy. }
    rewrite E. unfold larger. rewrite map_length.
    rewrite (flat_map_filter_map (fun np => (j1 <? f_j (snd np))%Z) (fun np => [n1; fst np])).
    unfold enumerate. clear.
    assert (G : forall i pre, List.length pre = i ->
       map (fun np : nat * filter W P => [n1; fst np])
         (List.filter (fun np => (j1 <? f_j (snd np))%Z) (enum_from i psi2)) =
       map (fun n2 => [n1; n2])
         (List.filter (fun n2 => (j1 <? nth n2 (map f_j (pre ++ psi2)) 0)%Z) (seq i (List.length psi2)))).
    { induction psi2 as [|f l IH]; intros i pre Hp; [reflexivity|].
      cbn [enum_from List.filter List.length seq snd fst].
      rewrite map_app, app_nth2; rewrite ?map_length; [|lia]. rewrite Hp, Nat.sub_diag. cbn [map nth].
      specialize (IH (S i) (pre ++ [f])). rewrite <- app_assoc in IH. cbn [app] in IH.
      rewrite map_app in IH. cbn [map] in IH.
      destruct (j1 <? f_j f)%Z; cbn [map fst]; rewrite IH; rewrite ?app_length; cbn; try reflexivity; lia. }
    exact (G 0 [] eq_refl).
  - apply Forall_forall. intros p Hp. apply in_concat in Hp. destruct Hp as (y & Hy & Hp).
    destruct (Forall2_In_r _ _ _ _ H Hy) as ([n2 f] & Hin & E).
    apply In_enumerate in Hin. pose proof (order2_keys _ _ _ _ _ _ _ _ _ _ E) as K.
    destruct (j1 <? f_j f)%Z eqn:Ej.
    + destruct K as (q & -> & E1 & E2). destruct Hp as [<-|[]]. exists n2. split; [assumption|].
      exists f. apply Z.ltb_lt in Ej. repeat split; assumption.
    + subst y. destruct Hp.
Qed.

(** What is computed inside one iteration of the loop over n1. *)
Lemma order1_inv (phi : filter W P) psi2s U0h ls al n1 psi1 l :
  order1 be phi psi2s U0h ls al (n1, psi1) = Ok l ->
  exists p1 ll U1m U1h,
    l = p1 :: concat ll /\ p_n p1 = [n1] /\ p_j p1 = [f_j psi1] /\
    order1 be phi None U0h ls al (n1, psi1) = Ok [p1] /\
    order1_modulus be U0h psi1 (if al then Z.min (f_j psi1) ls else f_j psi1) = Ok U1m /\
    match psi2s with
    | Some psi2 =>
        be_rfft be U1m = Ok U1h /\
        mapM (order2 be phi U1h n1 (f_j psi1) (if al then Z.min (f_j psi1) ls else f_j psi1) ls al)
             (enumerate psi2) = Ok ll
    | None => ll = []
    end.
Proof.
  unfold order1. intros H. inv_bind H. inv_bind H. inv_bind H. inv_bind H. injection H; intros <-.
  exists v1, v2, v, v0. rewrite E. cbn [bind].
  assert (K : p_n v1 = [n1] /\ p_j v1 = [f_j psi1]).
  { destruct al; [inv_binds E1; injection E1; intros <-; auto|injection E1; intros <-; auto]. }
  destruct K as [K1 K2]. repeat split; try assumption.
  - destruct al; cbn [orb] in *.
    + rewrite E0. cbn [bind]. rewrite E1. reflexivity.
    + injection E1; intros <-. reflexivity.
  - destruct psi2s as [psi2|].
    + rewrite orb_true_r in E0. split; assumption.
    + injection E2; intros <-. reflexivity.
Qed.

Lemma scattering1d_inv U0 (phi : filter W P) psis ls al ps :
  scattering1d be U0 phi psis ls al = Ok ps ->
  exists U0h p0 psi1 ll,
    be_rfft be U0 = Ok U0h /\ order0 be phi U0 U0h ls al = Ok p0 /\ nth_error psis 0 = Some psi1 /\
    mapM (order1 be phi (nth_error psis 1) U0h ls al) (enumerate psi1) = Ok ll /\ ps = p0 :: concat ll.
Proof.
  unfold scattering1d. intros H. inv_binds H. injection H; intros <-.
  exists v, v0, v1, v2. repeat split; try assumption. now apply py_index_nonneg in E1.
Qed.

Lemma scattering1d_keys U0 (phi : filter W P) psi1 rest ls al ps :
  scattering1d be U0 phi (psi1 :: rest) ls al = Ok ps ->
  map p_n ps = gen_keys (map f_j psi1) (option_map (map f_j) (nth_error rest 0)).
Proof.
  intros H. apply scattering1d_inv in H.
  destruct H as (U0h & p0 & psi1' & ll & _ & E0 & E1 & E2 & ->).
  cbn in E1. injection E1; intros <-. clear E1. cbn [nth_error] in E2.
  change (nth_error rest 0) with (nth_error (psi1 :: rest) 1).
  apply order0_keys in E0. destruct E0 as [E0 _]. cbn [map]. rewrite E0. unfold gen_keys. f_equal.
  rewrite map_length. apply mapM_ok in E2. cbn [nth_error].
  set (psi2s := nth_error rest 0) in *.
  unfold enumerate in E2.
  assert (G : forall i pre ll, List.length pre = i ->
     Forall2 (fun x y => order1 be phi psi2s U0h ls al x = Ok y) (enum_from i psi1) ll ->
     map p_n (concat ll) =
     flat_map (fun n1 => [n1] ::
       match option_map (map f_j) psi2s with
       | Some j2s => map (fun n2 => [n1; n2]) (larger (nth n1 (map f_j (pre ++ psi1)) 0%Z) j2s)
       | None => [] end) (seq i (List.length psi1))).
  { clear. induction psi1 as [|f l IH]; intros i pre ll Hp F; inversion F as [|? y ? ll' Hy F']; subst.
    - reflexivity.
    - cbn [concat List.length seq flat_map]. rewrite map_app.
      rewrite (IH (S (List.length pre)) (pre ++ [f]) ll');
        [|rewrite app_length; cbn; lia|assumption].
      rewrite <- app_assoc. cbn [app].
      apply order1_inv in Hy. destruct Hy as (p1 & l2 & U1m & U1h & -> & K1 & _ & _ & _ & K2).
      cbn [map app]. rewrite K1. f_equal. f_equal.
      rewrite map_app, app_nth2; rewrite ?map_length; [|lia]. rewrite Nat.sub_diag. cbn [map nth].
      destruct psi2s as [psi2|]; cbn [option_map].
      + destruct K2 as [_ K2]. apply order2_all_keys in K2. exact (proj1 K2).
      + now subst l2. }
  exact (G 0 [] ll eq_refl E2).
Qed.

(** Every path carries the scales of the wavelets in its key. *)
Lemma scattering1d_scales U0 (phi : filter W P) psi1 rest ls al ps p :
  scattering1d be U0 phi (psi1 :: rest) ls al = Ok ps -> In p ps ->
  (p_n p = [] /\ p_j p = []) \/
  (exists n1 f1, p_n p = [n1] /\ nth_error psi1 n1 = Some f1 /\ p_j p = [f_j f1]) \/
  (exists n1 n2 f1 f2 psi2, p_n p = [n1; n2] /\ nth_error rest 0 = Some psi2 /\
     nth_error psi1 n1 = Some f1 /\ nth_error psi2 n2 = Some f2 /\ p_j p = [f_j f1; f_j f2] /\
     (f_j f1 < f_j f2)%Z).
Proof.
  intros H Hp. apply scattering1d_inv in H.
  destruct H as (U0h & p0 & psi1' & ll & _ & E0 & E1 & E2 & ->).
  cbn in E1. injection E1; intros <-. clear E1.
  destruct Hp as [<-|Hp]; [left; now apply order0_keys in E0|right].
  apply in_concat in Hp. destruct Hp as (y & Hy & Hp). apply mapM_ok in E2.
  destruct (Forall2_In_r _ _ _ _ E2 Hy) as ([n1 f1] & Hin & E). apply In_enumerate in Hin.
  apply order1_inv in E. destruct E as (p1 & l2 & U1m & U1h & -> & K1 & K2 & _ & _ & K3).
  destruct Hp as [<-|Hp]; [left; eauto|right].
  change (nth_error (psi1 :: rest) 1) with (nth_error rest 0) in K3.
  destruct (nth_error rest 0) as [psi2|] eqn:Er; [|subst l2; destruct Hp].
  destruct K3 as [_ K3]. apply order2_all_keys in K3. destruct K3 as [_ K3].
  rewrite Forall_forall in K3. destruct (K3 p Hp) as (n2 & A & f2 & B & C & D & _).
  exists n1, n2, f1, f2, psi2. auto 10.
Qed.

(** ** max_order = 1 versus 2 *)
Lemma scattering1d_order1_ok U0 (phi : filter W P) psi1 psi2 ls al ps :
  scattering1d be U0 phi [psi1; psi2] ls al = Ok ps ->
  scattering1d be U0 phi [psi1] ls al =
    Ok (List.filter (fun p => Nat.leb (List.length (p_n p)) 1) ps).
Proof.
  intros H. apply scattering1d_inv in H.
  destruct H as (U0h & p0 & psi1' & ll & A & B & C & D & ->).
  cbn in C. injection C; intros <-. clear C. cbn [nth_error] in D.
  unfold scattering1d. rewrite A. cbn [bind]. rewrite B. cbn [bind]. rewrite py_index_0. cbn [bind nth_error].
  apply order0_keys in B. destruct B as [B _]. cbn [List.filter]. rewrite B. cbn [List.length Nat.leb].
  apply mapM_ok in D.
  assert (G : mapM (order1 be phi None U0h ls al) (enumerate psi1) =
     Ok (map (List.filter (fun p => Nat.leb (List.length (p_n p)) 1)) ll)).
  { apply mapM_ok. revert D. generalize (enumerate psi1). intros l.
    induction 1 as [|[n1 f] y l ll Hy F IH]; cbn [map]; constructor; [|assumption].
    apply order1_inv in Hy. destruct Hy as (p1 & l2 & U1m & U1h & -> & K1 & _ & K0 & _ & _ & K2).
    rewrite K0. f_equal. cbn [List.filter]. rewrite K1. cbn [List.length Nat.leb]. f_equal.
    apply order2_all_keys in K2. destruct K2 as [_ K2].
    induction (concat l2) as [|q l3 IH3]; [reflexivity|]. inversion K2 as [|? ? Hq K2']; subst.
    destruct Hq as (n2 & Hq & _). cbn [List.filter]. rewrite Hq. cbn. now apply IH3. }
  rewrite G. cbn [bind]. f_equal. f_equal.
  clear. induction ll; cbn [map concat]; [reflexivity|]. rewrite filter_app, IHll. reflexivity.
Qed.
End Gen.
