(** Property C121: the frequency padding of the joint transform. *)
From Coq Require Import String Reals ZArith List Bool Arith Lia.
From Coquelicot Require Import Complex.
From Verif Require Import Base BaseProofs NdArray Backend NdProofs StackProofs ComplexOps Torch1d TorchSim Tf1d Dft.
Import ListNotations.
Local Open Scope Z_scope.

(** Flat data: each of the [B] rows of [n] entries of [X] is followed by [p] zeros in [Y]. *)
Definition extended {A} (d : A) (B n p : nat) (X Y : list A) : Prop := List.length Y = (B * (n + p))%nat /\ forall i, (i < B)%nat ->
  (forall k, (k < n)%nat -> nth (i * (n + p) + k) Y d = nth (i * n + k) X d) /\ (forall k, (n <= k < n + p)%nat -> nth (i * (n + p) + k) Y d = d).
Lemma length_rows {A} c (rows : list (list A)) : List.Forall (fun w => List.length w = c) rows -> List.length (concat rows) = (List.length rows * c)%nat.
Proof. induction 1 as [|w ws Hw F IH]; [reflexivity|]. cbn. rewrite app_length, IH, Hw. lia. Qed.
Lemma nth_firstn_lt {A} k (l : list A) z i : (i < k)%nat -> nth i (firstn k l) z = nth i l z.
Proof. revert l i. induction k as [|k IH]; intros l i H; [lia|]. destruct l as [|a l]; [reflexivity|]. destruct i as [|i]; [reflexivity|]. cbn. apply IH. lia. Qed.
Lemma extended_rows {A} (o : ops A) B n p (f : list A -> list A) (X : list A) : List.length X = (B * n)%nat -> (forall w, List.length w = n -> f w = pad_zero_row o p w) ->
  extended (o_zero o) B n p X (concat (map f (chunks B n X))).
Proof.
  intros HX Hf. destruct (chunks_ok B n X HX) as (H1 & H2 & H3).
  assert (Em : map f (chunks B n X) = map (pad_zero_row o p) (chunks B n X)).
  { apply map_ext_in. intros w Hw. apply Hf. rewrite Forall_forall in H2. now apply H2. }
  rewrite Em.
  assert (F : List.Forall (fun w => List.length w = (n + p)%nat) (map (pad_zero_row o p) (chunks B n X))).
  { rewrite Forall_map. eapply Forall_impl; [|exact H2]. intros w Hw. cbv beta in *. unfold pad_zero_row. rewrite app_length, repeat_length, Hw. reflexivity. }
  split; [rewrite (length_rows _ _ F), map_length; lia|]. intros i Hi.
  assert (Hlen : List.length (nth i (chunks B n X) []) = n) by (rewrite Forall_forall in H2; apply H2, nth_In; lia).
  split; intros k Hk; rewrite nth_concat_const by (try exact F; lia); rewrite (nth_map_any _ _ _ _ []) by lia; unfold pad_zero_row.
  - rewrite app_nth1 by lia. rewrite <- H3 at 2. symmetry. apply nth_concat_const; [exact H2|exact Hk].
  - rewrite app_nth2 by lia. apply nth_repeat.
Qed.

(** C121, for every amount that is not negative; missing: PyTorch with a negative amount (see C121_torch_refuted). *)
Theorem C121_zeros_partial : forall pre n p, 0 <= p -> let p' := Z.to_nat p in
  (forall x : nd C, nd_wf x -> nd_shape x = pre ++ [n] ->
    exists y, np_pad_frequency complex_ops x p = Ok y /\ nd_shape y = pre ++ [(n + p')%nat] /\ nd_dtype y = nd_dtype x /\ extended (RtoC 0) (prod pre) n p' (nd_data x) (nd_data y)) /\
  (forall x : tft C, nd_wf (tf_val x) -> nd_shape (tf_val x) = pre ++ [n] ->
    exists y, tf_pad_frequency complex_ops x p = Ok y /\ nd_shape (tf_val y) = pre ++ [(n + p')%nat] /\ tf_prec y = tf_prec x /\ extended (RtoC 0) (prod pre) n p' (nd_data (tf_val x)) (nd_data (tf_val y))) /\
  (forall (x : tensor) c, List.length (t_data x) = prod (t_shape x) -> t_shape x = (pre ++ [n]) ++ [c] ->
    exists y, t_pad_frequency x p = Ok y /\ t_shape y = pre ++ [(n + p')%nat; c] /\ t_dtype y = t_dtype x /\ extended 0%R (prod pre) (n * c) (p' * c) (t_data x) (t_data y)).
Proof.
  intros pre n p Hp p'. assert (E : (p <? 0) = false) by (apply Z.ltb_ge; lia). split; [|split].
  - intros x Hw Hs. unfold np_pad_frequency. rewrite Hs, split_last_snoc. cbn [bind]. rewrite E. eexists. do 3 (split; [reflexivity|]).
    unfold nd_wf in Hw. rewrite Hs, prod_snoc in Hw. exact (extended_rows complex_ops _ _ _ _ (nd_data x) Hw (fun w _ => eq_refl)).
  - intros x Hw Hs. unfold tf_pad_frequency. rewrite Hs, split_last_snoc. cbn [bind]. rewrite E. eexists. do 3 (split; [reflexivity|]).
    unfold nd_wf in Hw. rewrite Hs, prod_snoc in Hw. exact (extended_rows complex_ops _ _ _ _ (nd_data (tf_val x)) Hw (fun w _ => eq_refl)).
  - intros x c Hw Hs. unfold t_pad_frequency. rewrite Hs, split_pair_snoc. cbn [bind].
    assert (E2 : (Z.of_nat n + p <? 0) = false) by (apply Z.ltb_ge; lia). rewrite E2.
    assert (E3 : Z.to_nat (Z.of_nat n + p) = (n + p')%nat) by (unfold p'; lia). rewrite E3. eexists. do 3 (split; [reflexivity|]).
    rewrite Hs, !prod_snoc in Hw. apply (extended_rows real_ops); [lia|]. intros w Hl. apply firstn_all2. unfold pad_zero_row. rewrite app_length, repeat_length, Hl. fold p'. lia.
Qed.
Print Assumptions C121_zeros_partial.
(** Negative amounts are refused by NumPy and TensorFlow. *)
Theorem C121_negative : forall pre n p (x : nd C) (u : tft C), p < 0 -> nd_shape x = pre ++ [n] -> nd_shape (tf_val u) = pre ++ [n] ->
  np_pad_frequency complex_ops x p = Err ValueError /\ tf_pad_frequency complex_ops u p = Err RuntimeError.
Proof.
  intros pre n p x u Hp Hx Hu. unfold np_pad_frequency, tf_pad_frequency. rewrite Hx, Hu, split_last_snoc. cbn [bind]. apply Z.ltb_lt in Hp. rewrite Hp. auto.
Qed.
Print Assumptions C121_negative.
(** PyTorch drops the last rows instead, silently, as long as there are enough of them. *)
Theorem C121_torch_refuted : forall pre n c q (x : tensor), (0 < q <= n)%nat -> t_shape x = (pre ++ [n]) ++ [c] -> List.length (t_data x) = prod (t_shape x) ->
  exists y, t_pad_frequency x (- Z.of_nat q) = Ok y /\ t_shape y = pre ++ [(n - q)%nat; c] /\ List.length (t_data y) = prod (t_shape y) /\
    forall i k, (i < prod pre)%nat -> (k < (n - q) * c)%nat -> nth (i * ((n - q) * c) + k) (t_data y) 0%R = nth (i * (n * c) + k) (t_data x) 0%R.
Proof.
  intros pre n c q x Hq Hs Hw. unfold t_pad_frequency. rewrite Hs, split_pair_snoc. cbn [bind].
  assert (E2 : (Z.of_nat n + - Z.of_nat q <? 0) = false) by (apply Z.ltb_ge; lia). rewrite E2.
  assert (E3 : Z.to_nat (Z.of_nat n + - Z.of_nat q) = (n - q)%nat) by lia. assert (E4 : Z.to_nat (- Z.of_nat q) = 0%nat) by lia. rewrite E3, E4.
  eexists. split; [reflexivity|]. split; [reflexivity|]. cbn [t_shape t_data].
  rewrite Hs, !prod_snoc in Hw. destruct (chunks_ok (prod pre) (n * c) (t_data x) ltac:(lia)) as (H1 & H2 & H3). set (f := fun row => _).
  assert (Ef : forall w, f w = firstn ((n - q) * c) w) by (intros w; unfold f, pad_zero_row; cbn [repeat Nat.mul]; now rewrite app_nil_r).
  assert (Hle : ((n - q) * c <= n * c)%nat) by (apply Nat.mul_le_mono_r; lia).
  assert (F : List.Forall (fun w => List.length w = ((n - q) * c)%nat) (map f (chunks (prod pre) (n * c) (t_data x)))).
  { rewrite Forall_map. eapply Forall_impl; [|exact H2]. intros w Hl. cbv beta. rewrite Ef, firstn_length, Hl. lia. }
  split.
  - rewrite (length_rows _ _ F), map_length, H1. replace (pre ++ [(n - q)%nat; c]) with ((pre ++ [(n - q)%nat]) ++ [c]) by (now rewrite <- app_assoc). rewrite !prod_snoc. lia.
  - intros i k Hi Hk. rewrite nth_concat_const by assumption. rewrite (nth_map_any _ _ _ _ []) by lia. rewrite Ef. rewrite nth_firstn_lt by exact Hk.
    rewrite <- H3 at 2. symmetry. apply nth_concat_const; [exact H2|lia].
Qed.
Print Assumptions C121_torch_refuted.
(** Two channels of three frequencies, one sample each, padded by two zeros; a padding of -1 drops a frequency with PyTorch only. *)
Example C121_instance : let x := mk_t F32 [2; 3; 1]%nat [1; 2; 3; 4; 5; 6]%R true in
  (exists y, t_pad_frequency x 2 = Ok y /\ t_shape y = [2; 5; 1]%nat /\ nth 4 (t_data y) 7%R = 0%R /\ nth 5 (t_data y) 7%R = 4%R) /\
  (exists y, t_pad_frequency x (-1) = Ok y /\ t_shape y = [2; 2; 1]%nat /\ nth 2 (t_data y) 0%R = 4%R) /\
  np_pad_frequency complex_ops (mk_nd Real [2; 3]%nat (map RtoC [1; 2; 3; 4; 5; 6]%R)) (-1) = Err ValueError.
Proof.
  intros x. split; [|split].
  - destruct (C121_zeros_partial [2%nat] 3 2 ltac:(lia)) as (_ & _ & T). destruct (T x 1%nat eq_refl eq_refl) as (y & E & Sh & _ & Len & M).
    exists y. split; [exact E|]. split; [exact Sh|]. cbn [prod fold_right Nat.mul Nat.add Z.to_nat Pos.to_nat Pos.iter_op] in *. split.
    + rewrite (nth_indep _ 7%R 0%R) by (rewrite Len; cbn; lia). exact (proj2 (M 0%nat ltac:(lia)) 4%nat ltac:(cbn; lia)).
    + rewrite (nth_indep _ 7%R 0%R) by (rewrite Len; cbn; lia). exact (proj1 (M 1%nat ltac:(lia)) 0%nat ltac:(cbn; lia)).
  - destruct (C121_torch_refuted [2%nat] 3 1 1 x ltac:(lia) eq_refl eq_refl) as (y & E & Sh & _ & M). exists y. split; [exact E|]. split; [exact Sh|].
    exact (M 1%nat 0%nat ltac:(cbn; lia) ltac:(cbn; lia)).
  - apply (C121_negative [2%nat] 3 (-1) (mk_nd Real [2; 3]%nat (map RtoC [1; 2; 3; 4; 5; 6]%R)) (mk_tf F32 (mk_nd Real [2; 3]%nat (map RtoC [1; 2; 3; 4; 5; 6]%R)))); [lia|reflexivity|reflexivity].
Qed.
