(** Lemmas about the vocabulary of Base.v. *)
From Coq Require Import ZArith List Bool Lia Permutation Sorted Arith.
From Verif Require Import Base.
Import ListNotations.

Lemma bind_ok {A B} (m : res A) (f : A -> res B) b :
  bind m f = Ok b <-> exists a, m = Ok a /\ f a = Ok b.
Proof.
  split.
  - destruct m as [a|e]; cbn [bind]; [eauto|discriminate].
  - intros (a & -> & H). exact H.
Qed.

Ltac inv_bind H :=
  match type of H with
  | bind ?m ?f = Ok ?b =>
      let a := fresh "v" in let H1 := fresh "E" in
      apply bind_ok in H; destruct H as (a & H1 & H)
  end.
Ltac inv_binds H := repeat (inv_bind H).

Lemma mapM_ok {A B} (f : A -> res B) l r :
  mapM f l = Ok r <-> Forall2 (fun x y => f x = Ok y) l r.
Proof.
  revert r. induction l as [|x l IH]; intros r; cbn [mapM].
  - split; [intros H; injection H; intros <-; constructor | intros H; inversion H; reflexivity].
  - split.
    + intros H. apply bind_ok in H. destruct H as (y & Hy & H).
      apply bind_ok in H. destruct H as (ys & Hys & H). injection H; intros <-.
      constructor; [assumption|]. now apply IH.
    + intros H. inversion H as [|? y ? ys Hy Hys]; subst. rewrite Hy. cbn [bind].
      apply IH in Hys. rewrite Hys. reflexivity.
Qed.

Lemma Forall2_len {A B} (R : A -> B -> Prop) l r : Forall2 R l r -> length l = length r.
Proof. induction 1; cbn; congruence. Qed.

Lemma mapM_length {A B} (f : A -> res B) l r : mapM f l = Ok r -> length r = length l.
Proof. intros H. apply mapM_ok in H. symmetry. eapply Forall2_len; eassumption. Qed.

Lemma mapM_ext {A B} (f g : A -> res B) l : (forall x, In x l -> f x = g x) -> mapM f l = mapM g l.
Proof.
  induction l as [|x l IH]; intros H; cbn [mapM]; [reflexivity|].
  rewrite (H x) by (left; reflexivity). rewrite IH; [reflexivity|]. intros; apply H; right; assumption.
Qed.

Lemma mapM_map {A B C} (f : B -> res C) (g : A -> B) l : mapM f (map g l) = mapM (fun x => f (g x)) l.
Proof. induction l as [|x l IH]; cbn; [reflexivity|]. rewrite IH. reflexivity. Qed.

Lemma mapM_total {A B} (f : A -> res B) l : (forall x, In x l -> exists y, f x = Ok y) ->
  exists r, mapM f l = Ok r.
Proof.
  induction l as [|x l IH]; intros H; cbn [mapM]; [eauto|].
  destruct (H x (or_introl eq_refl)) as (y & ->). cbn [bind].
  destruct IH as (r & ->); [intros; apply H; right; assumption|]. cbn [bind]. eauto.
Qed.

Lemma mapM_Ok {A B} (f : A -> B) l : mapM (fun x => Ok (f x)) l = Ok (map f l).
Proof. induction l as [|x l IH]; cbn; [reflexivity|]. rewrite IH. reflexivity. Qed.

Lemma mapM_app {A B} (f : A -> res B) l1 l2 r : mapM f (l1 ++ l2) = Ok r <->
  exists r1 r2, mapM f l1 = Ok r1 /\ mapM f l2 = Ok r2 /\ r = r1 ++ r2.
Proof.
  rewrite mapM_ok. split.
  - intros H. apply Forall2_app_inv_l in H. destruct H as (r1 & r2 & H1 & H2 & ->).
    exists r1, r2. rewrite !mapM_ok. auto.
  - intros (r1 & r2 & H1 & H2 & ->). rewrite mapM_ok in H1, H2. apply Forall2_app; assumption.
Qed.

(** ** enumerate *)
Lemma enum_from_fst {A} i (l : list A) : map fst (enum_from i l) = seq i (length l).
Proof. revert i. induction l; intros; cbn; [reflexivity|]. now rewrite IHl. Qed.
Lemma enum_from_snd {A} i (l : list A) : map snd (enum_from i l) = l.
Proof. revert i. induction l; intros; cbn; [reflexivity|]. now rewrite IHl. Qed.
Lemma enum_from_length {A} i (l : list A) : length (enum_from i l) = length l.
Proof. revert i. induction l; intros; cbn; [reflexivity|]. now rewrite IHl. Qed.
Lemma enum_from_nth {A} i (l : list A) k : nth_error (enum_from i l) k =
  option_map (fun a => (i + k, a)) (nth_error l k).
Proof.
  revert i k. induction l; intros i k; destruct k; cbn; try reflexivity.
  - now rewrite Nat.add_0_r.
  - rewrite IHl. destruct (nth_error l k); cbn; [|reflexivity]. now rewrite Nat.add_succ_r.
Qed.
Lemma In_enumerate {A} (l : list A) n a : In (n, a) (enumerate l) <-> nth_error l n = Some a.
Proof.
  unfold enumerate. split.
  - intros H. apply In_nth_error in H. destruct H as (k & H). rewrite enum_from_nth in H.
    destruct (nth_error l k) eqn:E; cbn in H; [|discriminate]. injection H; intros; subst. exact E.
  - intros H. apply (nth_error_In _ n). rewrite enum_from_nth, H. reflexivity.
Qed.
Lemma enum_from_map {A B} (f : A -> B) i l : enum_from i (map f l) =
  map (fun p => (fst p, f (snd p))) (enum_from i l).
Proof. revert i. induction l; intros; cbn; [reflexivity|]. now rewrite IHl. Qed.
Lemma enum_from_app {A} i (l1 l2 : list A) :
  enum_from i (l1 ++ l2) = enum_from i l1 ++ enum_from (i + length l1) l2.
Proof.
  revert i. induction l1; intros; cbn; [now rewrite Nat.add_0_r|].
  rewrite IHl1. f_equal. f_equal. f_equal. lia.
Qed.

Lemma py_index_nonneg {A} (l : list A) i a : (0 <= i)%Z ->
  (py_index l i = Ok a <-> nth_error l (Z.to_nat i) = Some a).
Proof.
  intros H. unfold py_index. destruct (i <? 0)%Z eqn:E; [apply Z.ltb_lt in E; lia|].
  rewrite E. destruct (nth_error l (Z.to_nat i)); split; congruence.
Qed.

Lemma py_index_0 {A} (l : list A) : py_index l 0 = match l with [] => Err IndexError | a :: _ => Ok a end.
Proof. destruct l; reflexivity. Qed.

Lemma py_index_total {A} (l : list A) i : (0 <= i < Z.of_nat (length l))%Z -> exists a, py_index l i = Ok a.
Proof.
  intros H. destruct (nth_error l (Z.to_nat i)) as [a|] eqn:E.
  - exists a. apply py_index_nonneg; [lia|assumption].
  - apply nth_error_None in E. lia.
Qed.

Lemma py_index_last {A} (l : list A) a : py_index (l ++ [a]) (-1) = Ok a.
Proof.
  unfold py_index. cbn [Z.ltb Z.compare]. rewrite app_length. cbn [length].
  destruct (-1 + Z.of_nat (length l + 1) <? 0)%Z eqn:E; [apply Z.ltb_lt in E; lia|].
  replace (Z.to_nat (-1 + Z.of_nat (length l + 1))) with (length l) by lia.
  rewrite nth_error_app2 by lia. rewrite Nat.sub_diag. reflexivity.
Qed.

(** ** Sorting *)
Section Sort.
Context {A : Type} (le : A -> A -> bool).

Lemma insert_perm x l : Permutation (insert le x l) (x :: l).
Proof.
  induction l as [|y l IH]; cbn; [reflexivity|]. destruct (le x y); [reflexivity|].
  rewrite IH. apply perm_swap.
Qed.
Lemma isort_perm l : Permutation (isort le l) l.
Proof. induction l as [|x l IH]; cbn; [reflexivity|]. rewrite insert_perm. now constructor. Qed.

Context (total : forall x y, le x y = true \/ le y x = true)
        (trans : forall x y z, le x y = true -> le y z = true -> le x z = true).

Definition rle x y := le x y = true.

Lemma insert_sorted x l : StronglySorted rle l -> StronglySorted rle (insert le x l).
Proof.
  induction 1 as [|y l S IH F]; cbn; [constructor; constructor|].
  destruct (le x y) eqn:E.
  - constructor; [constructor; assumption|]. constructor; [exact E|].
    eapply Forall_impl; [|exact F]. intros z Hz. eapply trans; eassumption.
  - constructor; [assumption|].
    apply (Permutation_Forall (x := x :: l)); [symmetry; apply insert_perm|].
    constructor; [|assumption]. destruct (total x y) as [H|H]; [congruence|exact H].
Qed.
Lemma isort_sorted l : StronglySorted rle (isort le l).
Proof. induction l; cbn; [constructor|]. now apply insert_sorted. Qed.
End Sort.

Lemma sorted_unique {B} (R : B -> B -> Prop)
  (antisym : forall x y, R x y -> R y x -> x = y) l1 l2 :
  StronglySorted R l1 -> StronglySorted R l2 -> Permutation l1 l2 -> l1 = l2.
Proof.
  intros S1. revert l2. induction S1 as [|x l1 S1 IH F1]; intros l2 S2 P.
  - apply Permutation_nil in P. now subst.
  - destruct S2 as [|y l2 S2 F2]; [symmetry in P; apply Permutation_nil in P; discriminate|].
    assert (x = y).
    { assert (Hx : In x (y :: l2)) by (eapply Permutation_in; [exact P|left; reflexivity]).
      assert (Hy : In y (x :: l1)) by (eapply Permutation_in; [symmetry; exact P|left; reflexivity]).
      destruct Hx as [Hx|Hx]; [congruence|]. destruct Hy as [Hy|Hy]; [congruence|].
      rewrite Forall_forall in F1, F2. apply antisym; auto. }
    subst y. f_equal. apply IH; [assumption|]. eapply Permutation_cons_inv; eassumption.
Qed.

Lemma map_sorted {A B} (f : A -> B) (R : B -> B -> Prop) l :
  StronglySorted (fun x y => R (f x) (f y)) l -> StronglySorted R (map f l).
Proof.
  induction 1; cbn; constructor; [assumption|].
  rewrite Forall_map. assumption.
Qed.

(** Lexicographic order on tuples. *)
Lemma lex_leb_refl a : lex_leb a a = true.
Proof. induction a; cbn [lex_leb]; [reflexivity|]. now rewrite Nat.ltb_irrefl. Qed.
Lemma lex_leb_total a b : lex_leb a b = true \/ lex_leb b a = true.
Proof.
  revert b. induction a as [|x a IH]; intros [|y b]; cbn [lex_leb]; auto.
  destruct (Nat.ltb x y) eqn:E; [auto|]. destruct (Nat.ltb y x) eqn:E2; [auto|]. apply IH.
Qed.
Lemma lex_leb_antisym a b : lex_leb a b = true -> lex_leb b a = true -> a = b.
Proof.
  revert b. induction a as [|x a IH]; intros [|y b]; cbn [lex_leb]; try discriminate; auto.
  destruct (Nat.ltb x y) eqn:E; destruct (Nat.ltb y x) eqn:E2;
    rewrite ?Nat.ltb_lt, ?Nat.ltb_ge in *; try lia; try discriminate.
  intros. assert (x = y) by lia. subst. f_equal. auto.
Qed.
Lemma lex_leb_trans a b c : lex_leb a b = true -> lex_leb b c = true -> lex_leb a c = true.
Proof.
  revert b c. induction a as [|x a IH]; intros [|y b] [|z c]; cbn [lex_leb]; try discriminate; auto.
  destruct (Nat.ltb x y) eqn:E1; destruct (Nat.ltb y x) eqn:E2;
  destruct (Nat.ltb y z) eqn:E3; destruct (Nat.ltb z y) eqn:E4;
  destruct (Nat.ltb x z) eqn:E5; destruct (Nat.ltb z x) eqn:E6; auto; try discriminate;
    rewrite ?Nat.ltb_lt, ?Nat.ltb_ge in *; try lia.
  intros. eapply IH; eassumption.
Qed.

Lemma StronglySorted_app {A} (R : A -> A -> Prop) l1 l2 :
  StronglySorted R l1 -> StronglySorted R l2 -> (forall x y, In x l1 -> In y l2 -> R x y) ->
  StronglySorted R (l1 ++ l2).
Proof.
  induction 1 as [|x l1 S IH F]; intros S2 H; cbn; [assumption|].
  constructor.
  - apply IH; [assumption|]. intros; apply H; [right|]; assumption.
  - apply Forall_app. split; [assumption|]. apply Forall_forall. intros. apply H; [left; reflexivity|assumption].
Qed.

Lemma StronglySorted_map_seq {B} (R : B -> B -> Prop) (f : nat -> B) a n :
  (forall i j, i < j -> R (f i) (f j)) -> StronglySorted R (map f (seq a n)).
Proof.
  intros H. revert a. induction n; intros a; cbn; constructor; [apply IHn|].
  apply Forall_map. apply Forall_forall. intros x Hx. apply in_seq in Hx. apply H. lia.
Qed.

Lemma perm_flat_map_cons {A B} (f : A -> B) (g : A -> list B) l :
  Permutation (flat_map (fun x => f x :: g x) l) (map f l ++ flat_map g l).
Proof.
  induction l as [|x l IH]; cbn; [reflexivity|]. constructor.
  rewrite IH. rewrite !app_assoc. apply Permutation_app_tail. apply Permutation_app_comm.
Qed.

Lemma Forall2_nth_error_l {A B} (R : A -> B -> Prop) l r i a :
  Forall2 R l r -> nth_error l i = Some a -> exists b, nth_error r i = Some b /\ R a b.
Proof.
  intros H. revert i. induction H; intros [|i]; cbn; try discriminate.
  - intros E; injection E; intros; subst. eauto.
  - apply IHForall2.
Qed.
Lemma Forall2_nth_error_r {A B} (R : A -> B -> Prop) l r i b :
  Forall2 R l r -> nth_error r i = Some b -> exists a, nth_error l i = Some a /\ R a b.
Proof.
  intros H. revert i. induction H; intros [|i]; cbn; try discriminate.
  - intros E; injection E; intros; subst. eauto.
  - apply IHForall2.
Qed.
Lemma Forall2_In_r {A B} (R : A -> B -> Prop) l r b :
  Forall2 R l r -> In b r -> exists a, In a l /\ R a b.
Proof.
  intros H Hb. apply In_nth_error in Hb. destruct Hb as (i & Hb).
  destruct (Forall2_nth_error_r _ _ _ _ _ H Hb) as (a & Ha & HR). exists a.
  split; [eapply nth_error_In; eassumption|assumption].
Qed.
Lemma Forall2_In_l {A B} (R : A -> B -> Prop) l r a :
  Forall2 R l r -> In a l -> exists b, In b r /\ R a b.
Proof.
  intros H Ha. apply In_nth_error in Ha. destruct Ha as (i & Ha).
  destruct (Forall2_nth_error_l _ _ _ _ _ H Ha) as (b & Hb & HR). exists b.
  split; [eapply nth_error_In; eassumption|assumption].
Qed.
Lemma Forall2_impl_in {A B} (R R' : A -> B -> Prop) l r :
  (forall a b, In a l -> In b r -> R a b -> R' a b) -> Forall2 R l r -> Forall2 R' l r.
Proof.
  intros H F. induction F; constructor.
  - apply H; [left; reflexivity|left; reflexivity|assumption].
  - apply IHF. intros; apply H; [right|right|]; assumption.
Qed.

Lemma nth_error_ext {A} (l l' : list A) : (forall i, nth_error l i = nth_error l' i) -> l = l'.
Proof.
  revert l'. induction l as [|a l IH]; intros [|b l'] H; [reflexivity|specialize (H 0); discriminate..|].
  pose proof (H 0) as H0. cbn in H0. injection H0; intros ->. f_equal. apply IH.
  intros i. exact (H (S i)).
Qed.
