(** numpy.stack on arrays of equal shapes. *)
From Coq Require Import ZArith List Bool Arith Lia.
From Verif Require Import Base BaseProofs NdArray NdProofs.
Import ListNotations.
Local Open Scope Z_scope.

Lemma nth_map_any {A B} (f : A -> B) l i d d' : (i < List.length l)%nat -> nth i (map f l) d = f (nth i l d').
Proof. intros H. rewrite (nth_indep _ d (f d')) by (rewrite map_length; exact H). apply map_nth. Qed.

(** Block number [i] of an array cut into blocks of [inner] entries. *)
Definition block {K} (inner i : nat) (x : nd K) : list K := firstn inner (skipn (i * inner) (nd_data x)).
Lemma block_length {K} inner n i (x : nd K) : List.length (nd_data x) = (n * inner)%nat -> (i < n)%nat -> List.length (block inner i x) = inner.
Proof. intros H Hi. unfold block. rewrite firstn_length, skipn_length, H. nia. Qed.

(** Shape of the result, and where each block goes. *)
Lemma stack_at_blocks {K} (l : list (nd K)) (pre suf : list nat) : l <> [] ->
  (forall x, In x l -> nd_wf x /\ nd_shape x = pre ++ suf) ->
  exists y, stack_at (List.length pre) l = Ok y /\ nd_wf y /\ nd_shape y = pre ++ List.length l :: suf /\
    forall i k, (i < prod pre)%nat -> (k < List.length l)%nat -> forall d,
      block (prod suf) (i * List.length l + k) y = block (prod suf) i (nth k l d).
Proof.
  intros Hne Hl. destruct l as [|x l']; [congruence|]. set (l := x :: l') in *. pose proof (proj2 (Hl x (or_introl eq_refl))) as Hx.
  unfold stack_at. unfold l at 1. rewrite Hx.
  destruct (Nat.ltb_spec (List.length (pre ++ suf)) (List.length pre)) as [H0|_]; [rewrite app_length in H0; lia|].
  replace (forallb _ _) with true.
  2:{ symmetry. apply forallb_forall. intros y Hy. rewrite (proj2 (Hl y Hy)). destruct (list_eq_dec Nat.eq_dec _ _); congruence. }
  rewrite firstn_app, firstn_all, Nat.sub_diag, firstn_O, app_nil_r, skipn_app, skipn_all, Nat.sub_diag, skipn_O. cbn [app].
  set (inner := prod suf).
  assert (Eb : forall y, In y l -> forall j, (j < prod pre)%nat -> List.length (block inner j y) = inner).
  { intros y Hy j Hj. destruct (Hl y Hy) as [W1 W2]. apply (block_length _ (prod pre)); [|exact Hj]. rewrite W1, W2, prod_app. reflexivity. }
  set (B := concat (map (fun j => map (block inner j) l) (seq 0 (prod pre)))).
  assert (E : concat (map (fun j => concat (map (fun y => firstn inner (skipn (j * inner) (nd_data y))) l)) (seq 0 (prod pre))) = concat B).
  { unfold B. generalize (seq 0 (prod pre)). intros js. induction js as [|j js IH]; [reflexivity|]. cbn [map concat]. rewrite concat_app, IH. reflexivity. }
  assert (HB : Forall (fun r => List.length r = inner) B).
  { unfold B. apply Forall_forall. intros r Hr. apply in_concat in Hr as (ll & H1 & H2). apply in_map_iff in H1 as (j & <- & Hj).
    apply in_map_iff in H2 as (y & <- & Hy). apply in_seq in Hj. apply Eb; [exact Hy|lia]. }
  assert (HL : List.length B = (prod pre * List.length l)%nat).
  { unfold B. rewrite (concat_len (List.length l)), map_length, seq_length; [reflexivity|]. apply Forall_map, Forall_forall. intros; apply map_length. }
  rewrite E. eexists. split; [reflexivity|]. split; [|split; [reflexivity|]].
  - unfold nd_wf. cbn [nd_data nd_shape]. rewrite (concat_len inner), HL, prod_app by exact HB. cbn [prod fold_right]. fold (prod suf). fold inner. lia.
  - intros i k Hi Hk d. unfold block at 1. cbn [nd_data]. rewrite firstn_skipn_concat.
    + unfold B. rewrite nth_concat_const; [|apply Forall_map, Forall_forall; intros; apply map_length|exact Hk].
      rewrite (nth_map_any _ _ _ _ 0%nat) by (rewrite seq_length; exact Hi). rewrite seq_nth by exact Hi. cbn [plus].
      now rewrite (nth_map_any _ _ _ _ d) by exact Hk.
    + exact HB.
Qed.
Lemma stack_axis {K} (l : list (nd K)) (pre suf : list nat) dim : l <> [] -> dim = - Z.of_nat (1 + List.length suf) \/ dim = Z.of_nat (List.length pre) ->
  (forall x, In x l -> nd_shape x = pre ++ suf) -> stack l dim = stack_at (List.length pre) l.
Proof.
  intros Hne Hdim Hl. destruct l as [|x l']; [congruence|]. set (l := x :: l') in *. pose proof (Hl x (or_introl eq_refl)) as Hx.
  unfold stack. unfold l at 1. rewrite Hx, app_length.
  replace (if dim <? 0 then dim + Z.of_nat (List.length pre + List.length suf) + 1 else dim) with (Z.of_nat (List.length pre)) by (destruct (Z.ltb_spec dim 0); lia).
  destruct (Z.ltb_spec (Z.of_nat (List.length pre)) 0); [lia|]. now rewrite Nat2Z.id.
Qed.
Lemma stack_blocks {K} (l : list (nd K)) (pre suf : list nat) dim : l <> [] -> dim = - Z.of_nat (1 + List.length suf) ->
  (forall x, In x l -> nd_wf x /\ nd_shape x = pre ++ suf) ->
  exists y, stack l dim = Ok y /\ nd_shape y = pre ++ List.length l :: suf /\
    forall i k, (i < prod pre)%nat -> (k < List.length l)%nat -> forall d,
      block (prod suf) (i * List.length l + k) y = block (prod suf) i (nth k l d).
Proof.
  intros Hne Hd Hl. rewrite (stack_axis l pre suf) by first [assumption|now left|intros x Hx; apply Hl, Hx].
  destruct (stack_at_blocks l pre suf Hne Hl) as (y & E & _ & G). exists y. auto.
Qed.
