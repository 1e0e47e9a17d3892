(** Property C126: stacking arrays along a new axis. *)
From Coq Require Import String Reals ZArith List Bool Arith Lia.
From Coquelicot Require Import Complex.
From Verif Require Import Base BaseProofs NdArray Backend NdProofs StackProofs ComplexOps Torch1d Tf1d Dft PropPadFreq.
Import ListNotations.
Local Open Scope nat_scope.

(** Flat data: entry [q] of block [i] of array [k] becomes entry [q] of block [k] of the outer block [i]. *)
Definition interleaved {A} (d : A) (outer inner : nat) (Xs : list (list A)) (Y : list A) : Prop := List.length Y = outer * (List.length Xs * inner) /\
  forall i k q, i < outer -> k < List.length Xs -> q < inner -> nth ((i * List.length Xs + k) * inner + q) Y d = nth (i * inner + q) (nth k Xs []) d.
Lemma nth_skip {A} s (l : list A) q d : nth q (skipn s l) d = nth (s + q) l d.
Proof. revert l. induction s as [|s IH]; intros l; [reflexivity|]. destruct l as [|x l]; [now destruct q|]. cbn [skipn Nat.add nth]. apply IH. Qed.
Lemma interleaved_all {T A} (d : A) (D : T -> list A) outer inner (l : list T) : (forall x, In x l -> List.length (D x) = outer * inner) ->
  interleaved d outer inner (map D l) (concat (map (fun i => concat (map (fun y => firstn inner (skipn (i * inner) (D y))) l)) (seq 0 outer))).
Proof.
  intros H.
  assert (In1 : forall i, i < outer -> List.Forall (fun w => List.length w = inner) (map (fun y => firstn inner (skipn (i * inner) (D y))) l)).
  { intros i Hi. rewrite Forall_map. apply Forall_forall. intros y Hy. rewrite firstn_length, skipn_length, (H y Hy). assert ((i + 1) * inner <= outer * inner) by (apply Nat.mul_le_mono_r; lia). lia. }
  assert (In2 : List.Forall (fun w => List.length w = List.length l * inner) (map (fun i => concat (map (fun y => firstn inner (skipn (i * inner) (D y))) l)) (seq 0 outer))).
  { rewrite Forall_map. apply Forall_forall. intros i Hi. apply in_seq in Hi. rewrite (length_rows inner) by (apply In1; lia). now rewrite map_length. }
  split; [rewrite (length_rows _ _ In2), !map_length, seq_length; reflexivity|]. rewrite map_length. intros i k q Hi Hk Hq.
  assert (U : k * inner + q < List.length l * inner) by (assert ((k + 1) * inner <= List.length l * inner) by (apply Nat.mul_le_mono_r; lia); lia).
  replace ((i * List.length l + k) * inner + q) with (i * (List.length l * inner) + (k * inner + q)) by lia.
  rewrite nth_concat_const by (try exact In2; exact U). rewrite (nth_map_any _ _ _ _ 0) by (rewrite seq_length; exact Hi). rewrite seq_nth by exact Hi. cbn [Nat.add].
  rewrite nth_concat_const by (try (apply In1; exact Hi); exact Hq). destruct l as [|z l']; [cbn in Hk; lia|].
  rewrite !(nth_map_any _ _ _ _ z) by exact Hk. rewrite nth_firstn_lt by exact Hq. apply nth_skip.
Qed.

(** C126: the new axis comes after [pre], whether its position is counted from the front or, negatively, from the end of the result. *)
Theorem C126_stack : forall pre suf dim, (dim = Z.of_nat (List.length pre) \/ dim = - Z.of_nat (1 + List.length suf))%Z ->
  (forall l : list (nd C), l <> [] -> (forall x, In x l -> nd_wf x /\ nd_shape x = pre ++ suf) -> exists y, stack l dim = Ok y /\ nd_shape y = pre ++ List.length l :: suf /\
    interleaved (RtoC 0) (prod pre) (prod suf) (map nd_data l) (nd_data y)) /\
  (forall l : list tensor, l <> [] -> (forall x, In x l -> List.length (t_data x) = prod (t_shape x) /\ t_shape x = pre ++ suf) -> exists y, t_stack l dim = Ok y /\ t_shape y = pre ++ List.length l :: suf /\
    interleaved 0%R (prod pre) (prod suf) (map t_data l) (t_data y)).
Proof.
  intros pre suf dim Hdim.
  assert (Pos : (if (dim <? 0)%Z then (dim + Z.of_nat (List.length (pre ++ suf)) + 1)%Z else dim) = Z.of_nat (List.length pre)).
  { rewrite app_length. destruct (Z.ltb_spec dim 0); lia. }
  assert (F1 : firstn (List.length pre) (pre ++ suf) = pre) by (rewrite firstn_app, Nat.sub_diag, firstn_all; apply app_nil_r).
  assert (S1 : skipn (List.length pre) (pre ++ suf) = suf) by (rewrite skipn_app, skipn_all, Nat.sub_diag; reflexivity).
  split.
  - intros l Hne Hl. destruct l as [|x l']; [congruence|]. destruct (Hl x (or_introl eq_refl)) as (_ & Hx). set (l := x :: l') in *.
    assert (Sh : forallb (fun y => if list_eq_dec Nat.eq_dec (nd_shape y) (pre ++ suf) then true else false) l = true).
    { apply forallb_forall. intros y Hy. destruct (Hl y Hy) as (_ & E). destruct (list_eq_dec Nat.eq_dec (nd_shape y) (pre ++ suf)); congruence. }
    unfold stack, l. rewrite Hx, Pos. destruct (Z.ltb_spec (Z.of_nat (List.length pre)) 0); [lia|]. rewrite Nat2Z.id. unfold stack_at. rewrite Hx. fold l.
    destruct (Nat.ltb_spec (List.length (pre ++ suf)) (List.length pre)) as [Q|_]; [rewrite app_length in Q; lia|]. rewrite Sh, F1, S1. eexists. split; [reflexivity|]. split; [reflexivity|].
    apply (interleaved_all (RtoC 0) nd_data). intros y Hy. destruct (Hl y Hy) as (W & E). unfold nd_wf in W. now rewrite W, E, prod_app.
  - intros l Hne Hl. destruct l as [|x l']; [congruence|]. destruct (Hl x (or_introl eq_refl)) as (_ & Hx). set (l := x :: l') in *.
    assert (Sh : forallb (fun y => if list_eq_dec Nat.eq_dec (t_shape y) (pre ++ suf) then true else false) l = true).
    { apply forallb_forall. intros y Hy. destruct (Hl y Hy) as (_ & E). destruct (list_eq_dec Nat.eq_dec (t_shape y) (pre ++ suf)); congruence. }
    unfold t_stack, l. rewrite Hx, Pos. fold l.
    assert (Q : ((Z.of_nat (List.length pre) <? 0) || (Z.of_nat (List.length (pre ++ suf)) <? Z.of_nat (List.length pre)))%Z = false) by (rewrite orb_false_iff, !Z.ltb_ge, app_length; lia).
    rewrite Q, Sh, Nat2Z.id, F1, S1. eexists. split; [reflexivity|]. split; [reflexivity|].
    apply (interleaved_all 0%R t_data). intros y Hy. destruct (Hl y Hy) as (W & E). now rewrite W, E, prod_app.
Qed.
Print Assumptions C126_stack.
(** No array at all, or arrays of different shapes, are refused. *)
Theorem C126_refused : forall dim, stack (@nil (nd C)) dim = Err ValueError /\ t_stack [] dim = Err RuntimeError /\
  (forall (x y : nd C) l, In y l -> nd_shape y <> nd_shape x -> stack (x :: l) dim = Err ValueError) /\
  (forall (x y : tensor) l, In y l -> t_shape y <> t_shape x -> exists e, t_stack (x :: l) dim = Err e).
Proof.
  intros dim. split; [reflexivity|]. split; [reflexivity|]. split.
  - intros x y l Hy Hn. unfold stack. set (p := if (dim <? 0)%Z then _ else dim). cbv zeta. destruct (p <? 0)%Z; [reflexivity|]. unfold stack_at. cbv zeta. destruct (Nat.ltb _ _); [reflexivity|].
    destruct (forallb _ _) eqn:F; [|reflexivity]. exfalso. rewrite forallb_forall in F. specialize (F y (or_intror Hy)). cbv beta in F. destruct (list_eq_dec Nat.eq_dec (nd_shape y) (nd_shape x)); congruence.
  - intros x y l Hy Hn. unfold t_stack. cbv zeta. destruct (_ || _)%bool; [eexists; reflexivity|]. destruct (forallb _ _) eqn:F; [|eexists; reflexivity].
    exfalso. rewrite forallb_forall in F. specialize (F y (or_intror Hy)). cbv beta in F. destruct (list_eq_dec Nat.eq_dec (t_shape y) (t_shape x)); congruence.
Qed.
Print Assumptions C126_refused.
(** Three channels of two signals of 2 samples, stacked on the axis before time. *)
Example C126_instance : let ch a := mk_nd Real [2; 2] (map (fun i => RtoC (INR (a + i))) (seq 0 4)) in
  exists y, stack [ch 0; ch 10; ch 20] (-2) = Ok y /\ nd_shape y = [2; 3; 2] /\ nth 9 (nd_data y) (RtoC 0) = RtoC (INR 13).
Proof.
  intros ch. destruct (C126_stack [2] [2] (-2)%Z (or_intror eq_refl)) as (H & _). destruct (H [ch 0; ch 10; ch 20]) as (y & E & Sh & _ & V); [discriminate| |].
  - intros x [<-|[<-|[<-|[]]]]; split; reflexivity.
  - exists y. split; [exact E|]. split; [exact Sh|]. exact (V 1 1 1 ltac:(cbn; lia) ltac:(cbn; lia) ltac:(cbn; lia)).
Qed.
(** TensorFlow: the same for tensors of one dtype; tensors of different dtypes, which NumPy promotes, are refused, as are an empty list and unequal shapes. *)
Theorem C126_tensorflow : forall pre suf dim, (dim = Z.of_nat (List.length pre) \/ dim = - Z.of_nat (1 + List.length suf))%Z ->
  (forall l : list (tft C), l <> [] -> (forall x y, In x l -> In y l -> tf_prec x = tf_prec y /\ nd_dtype (tf_val x) = nd_dtype (tf_val y)) ->
    (forall x, In x l -> nd_wf (tf_val x) /\ nd_shape (tf_val x) = pre ++ suf) ->
    exists y, tf_stack l dim = Ok y /\ nd_shape (tf_val y) = pre ++ List.length l :: suf /\ (forall x, In x l -> tf_prec y = tf_prec x) /\
      interleaved (RtoC 0) (prod pre) (prod suf) (map (fun x => nd_data (tf_val x)) l) (nd_data (tf_val y))) /\
  tf_stack (@nil (tft C)) dim = Err RuntimeError /\
  (forall (x y : tft C) l, In y l -> tf_prec y <> tf_prec x \/ nd_dtype (tf_val y) <> nd_dtype (tf_val x) \/ nd_shape (tf_val y) <> nd_shape (tf_val x) -> tf_stack (x :: l) dim = Err RuntimeError).
Proof.
  intros pre suf dim Hdim. split; [|split; [reflexivity|]].
  - intros l Hne Hsame Hl. destruct (C126_stack pre suf dim Hdim) as (H & _). destruct (H (map tf_val l)) as (y & E & Sh & V).
    + destruct l; [congruence|discriminate].
    + intros x Hx. apply in_map_iff in Hx. destruct Hx as (t & <- & Ht). now apply Hl.
    + destruct l as [|x l']; [congruence|]. set (l := x :: l') in *. assert (F : forallb (tf_same x) l = true).
      { apply forallb_forall. intros z Hz. destruct (Hsame x z (or_introl eq_refl) Hz) as (P & D). unfold tf_same. rewrite P, D. destruct (tf_prec z), (nd_dtype (tf_val z)); reflexivity. }
      exists (mk_tf (tf_prec x) y). unfold tf_stack, l. fold l. rewrite F, E. split; [reflexivity|]. cbn [tf_val tf_prec]. rewrite map_length in Sh. rewrite map_map in V. split; [exact Sh|]. split; [|exact V].
      intros z Hz. now apply Hsame; [left|].
  - intros x y l Hy Hn. unfold tf_stack. destruct (forallb (tf_same x) (x :: l)) eqn:F; [|reflexivity].
    destruct Hn as [N|[N|N]].
    + rewrite forallb_forall in F. specialize (F y (or_intror Hy)). unfold tf_same in F. destruct (tf_prec x), (tf_prec y); try congruence; discriminate.
    + rewrite forallb_forall in F. specialize (F y (or_intror Hy)). unfold tf_same in F. apply andb_true_iff in F. destruct F as (_ & F). destruct (nd_dtype (tf_val x)), (nd_dtype (tf_val y)); try congruence; discriminate.
    + destruct (C126_refused dim) as (_ & _ & R & _). cbn [map]. rewrite (R (tf_val x) (tf_val y)); [reflexivity|now apply in_map|exact N].
Qed.
Print Assumptions C126_tensorflow.
Example C126_tensorflow_instance : let ch p := mk_tf p (mk_nd Real [2] [RtoC 1; RtoC 2]) in
  (exists y, tf_stack [ch F32; ch F32; ch F32] 0 = Ok y /\ nd_shape (tf_val y) = [3; 2]) /\ tf_stack [ch F32; ch F64] 0 = Err RuntimeError.
Proof.
  intros ch. destruct (C126_tensorflow [] [2] 0%Z (or_introl eq_refl)) as (H & _ & R). split.
  - destruct (H [ch F32; ch F32; ch F32]) as (y & E & Sh & _); [discriminate| | |now exists y].
    + intros x y [<-|[<-|[<-|[]]]] [<-|[<-|[<-|[]]]]; split; reflexivity.
    + intros x [<-|[<-|[<-|[]]]]; split; reflexivity.
  - apply (R (ch F32) (ch F64)); [now left|]. left. discriminate.
Qed.
