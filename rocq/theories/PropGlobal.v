(** Property C127: the global average. *)
From Coq Require Import String Reals ZArith List Bool Arith Lia Lra.
From Coquelicot Require Import Complex.
From Verif Require Import Base BaseProofs NdArray Backend NdProofs StackProofs ComplexOps FilterBank1d Torch1d TorchSim Tf1d Dft PropPadFreq.
Import ListNotations.
Local Open Scope nat_scope.

Lemma csum_shift n (g : nat -> C) : csum (S n) g = Cplus (g 0) (csum n (fun i => g (S i))).
Proof.
  induction n as [|n IH]; [cbn; ring|]. cbn [csum] in *. rewrite IH. ring.
Qed.
Lemma rsum_shift n (g : nat -> R) : rsum (S n) g = (g 0%nat + rsum n (fun i => g (S i)))%R.
Proof.
  induction n as [|n IH]; [cbn; ring|]. cbn [rsum] in *. rewrite IH. ring.
Qed.
Lemma osum_csum (l : list C) : osum complex_ops l = csum (List.length l) (fun t => nth t l (RtoC 0)).
Proof.
  induction l as [|a l IH]; [reflexivity|]. cbn [List.length]. rewrite csum_shift. cbn [nth]. rewrite <- IH. reflexivity.
Qed.
Lemma osum_rsum (l : list R) : osum real_ops l = rsum (List.length l) (fun t => nth t l 0%R).
Proof.
  induction l as [|a l IH]; [reflexivity|]. cbn [List.length]. rewrite rsum_shift. cbn [nth]. rewrite <- IH. reflexivity.
Qed.
Lemma sums_at {A} (d : A) (f : list A -> A) B n X : List.length X = B * n -> let Y := concat (map (fun r => [f r]) (chunks B n X)) in
  List.length Y = B /\ forall b, b < B -> exists r, nth b Y d = f r /\ List.length r = n /\ forall t, t < n -> nth t r d = nth (b * n + t) X d.
Proof.
  intros HX Y. destruct (chunks_ok B n X HX) as (H1 & H2 & H3).
  assert (F : List.Forall (fun w => List.length w = 1) (map (fun r => [f r]) (chunks B n X))) by (rewrite Forall_map; now apply Forall_forall).
  split; [unfold Y; rewrite (length_rows _ _ F), map_length, H1; lia|]. intros b Hb. exists (nth b (chunks B n X) []).
  split; [|split; [rewrite Forall_forall in H2; apply H2, nth_In; lia|]].
  - unfold Y. replace b with (b * 1 + 0) at 1 by lia. rewrite nth_concat_const by (try exact F; lia). now rewrite (nth_map_any _ _ _ _ []) by lia.
  - intros t Ht. rewrite <- H3 at 2. symmetry. now apply nth_concat_const.
Qed.
Lemma csum_same n f g : (forall t, t < n -> f t = g t) -> csum n f = csum n g.
Proof. induction n as [|n IH]; intros H; [reflexivity|]. cbn [csum]. rewrite IH by (intros; apply H; lia). now rewrite H by lia. Qed.
Lemma rsum_same n f g : (forall t, t < n -> f t = g t) -> rsum n f = rsum n g.
Proof. induction n as [|n IH]; intros H; [reflexivity|]. cbn [rsum]. rewrite IH by (intros; apply H; lia). now rewrite H by lia. Qed.

(** C127, up to the division by the number of samples, which is missing: the result is the sum over time. *)
Theorem C127_sum_partial : forall pre n,
  (forall x : nd C, nd_wf x -> nd_shape x = pre ++ [n] -> nd_dtype x = Real -> exists y, np_average_global complex_ops x = Ok y /\ nd_shape y = pre ++ [1] /\ nd_dtype y = Real /\ nd_wf y /\
    forall b, b < prod pre -> nth b (nd_data y) (RtoC 0) = csum n (fun t => nth (b * n + t) (nd_data x) (RtoC 0))) /\
  (forall x : tft C, nd_wf (tf_val x) -> nd_shape (tf_val x) = pre ++ [n] -> nd_dtype (tf_val x) = Real -> exists y, tf_average_global complex_ops x = Ok y /\ nd_shape (tf_val y) = pre ++ [1] /\ tf_prec y = tf_prec x /\
    nd_wf (tf_val y) /\ forall b, b < prod pre -> nth b (nd_data (tf_val y)) (RtoC 0) = csum n (fun t => nth (b * n + t) (nd_data (tf_val x)) (RtoC 0))) /\
  (forall x : tensor, List.length (t_data x) = prod (t_shape x) -> t_shape x = (pre ++ [n]) ++ [1] -> t_contig x = true -> exists y, t_average_global x = Ok y /\ t_shape y = pre ++ [1; 1] /\ t_dtype y = t_dtype x /\
    List.length (t_data y) = prod (t_shape y) /\ forall b, b < prod pre -> nth b (t_data y) 0%R = rsum n (fun t => nth (b * n + t) (t_data x) 0%R)).
Proof.
  intros pre n. split; [|split].
  - intros x Hw Hs Hd. unfold np_average_global, real_check, is_real. rewrite Hd, Hs, split_last_snoc. cbn [negb raise_if bind]. unfold nd_wf in Hw. rewrite Hs, prod_snoc in Hw.
    destruct (sums_at (RtoC 0) (osum complex_ops) (prod pre) n (nd_data x) Hw) as (L & V). eexists. split; [reflexivity|]. do 2 (split; [reflexivity|]). split.
    + unfold nd_wf, map_rows. cbn [nd_shape nd_data]. rewrite L, prod_snoc. lia.
    + intros b Hb. destruct (V b Hb) as (r & E & Lr & Er). unfold map_rows. cbn [nd_data]. rewrite E, osum_csum, Lr. now apply csum_same.
  - intros x Hw Hs Hd. unfold tf_average_global, tf_real_check, is_real. rewrite Hd, Hs, split_last_snoc. cbn [negb raise_if bind]. unfold nd_wf in Hw. rewrite Hs, prod_snoc in Hw.
    destruct (sums_at (RtoC 0) (osum complex_ops) (prod pre) n (nd_data (tf_val x)) Hw) as (L & V). eexists. split; [reflexivity|]. do 2 (split; [reflexivity|]). split.
    + unfold nd_wf, map_rows. cbn [tf_val nd_shape nd_data]. rewrite L, prod_snoc. lia.
    + intros b Hb. destruct (V b Hb) as (r & E & Lr & Er). unfold map_rows. cbn [tf_val nd_data]. rewrite E, osum_csum, Lr. now apply csum_same.
  - intros x Hw Hs Kc. unfold t_average_global, t_contiguous_check, t_real_check. rewrite Hs, split_last_snoc, split_pair_snoc, Kc. cbn [negb raise_if bind Nat.eqb].
    rewrite Hs, !prod_snoc, Nat.mul_1_r in Hw. destruct (sums_at 0%R (osum real_ops) (prod pre) n (t_data x) Hw) as (L & V). eexists. split; [reflexivity|]. do 2 (split; [reflexivity|]). split.
    + cbn [t_shape t_data]. rewrite L. change [1; 1] with ([1] ++ [1]). rewrite app_assoc, !prod_snoc. lia.
    + intros b Hb. destruct (V b Hb) as (r & E & Lr & Er). cbn [t_data]. rewrite E, osum_rsum, Lr. now apply rsum_same.
Qed.
Print Assumptions C127_sum_partial.
(** The average of a constant signal is that constant; with two samples or more and a constant other than zero, none of the backends returns it. *)
Theorem C127_average_refuted : forall n (c : R), 2 <= n -> c <> 0%R ->
  (exists y, np_average_global complex_ops (mk_nd Real [1; n] (repeat (RtoC c) n)) = Ok y /\ nth 0 (nd_data y) (RtoC 0) = RtoC (INR n * c) /\ nth 0 (nd_data y) (RtoC 0) <> RtoC c) /\
  (forall d, exists y, tf_average_global complex_ops (mk_tf d (mk_nd Real [1; n] (repeat (RtoC c) n))) = Ok y /\ nth 0 (nd_data (tf_val y)) (RtoC 0) = RtoC (INR n * c) /\ nth 0 (nd_data (tf_val y)) (RtoC 0) <> RtoC c) /\
  (forall d, exists y, t_average_global (mk_t d [1; n; 1] (repeat c n) true) = Ok y /\ nth 0 (t_data y) 0%R = (INR n * c)%R /\ nth 0 (t_data y) 0%R <> c).
Proof.
  intros n c Hn Hc.
  assert (Ne : (INR n * c)%R <> c). { intros Q. assert (Hr : ((INR n - 1) * c)%R = 0%R) by lra. apply Rmult_integral in Hr. destruct Hr as [Hr|Hr]; [|contradiction]. apply le_INR in Hn. cbn in Hn. lra. }
  assert (NeC : RtoC (INR n * c) <> RtoC c) by (intros Q; apply Ne; now injection Q).
  assert (Cs : forall m, m <= n -> csum m (fun t => nth (0 * n + t) (repeat (RtoC c) n) (RtoC 0)) = RtoC (INR m * c)).
  { induction m as [|m IH]; intros Hm; [cbn; now rewrite Rmult_0_l|]. cbn [csum]. rewrite IH by lia. cbn [Nat.mul Nat.add]. rewrite (nth_indep _ (RtoC 0) (RtoC c)) by (rewrite repeat_length; lia). rewrite nth_repeat, <- RtoC_plus, S_INR. f_equal. ring. }
  assert (Rs : forall m, m <= n -> rsum m (fun t => nth (0 * n + t) (repeat c n) 0%R) = (INR m * c)%R).
  { induction m as [|m IH]; intros Hm; [cbn; ring|]. cbn [rsum]. rewrite IH by lia. cbn [Nat.mul Nat.add]. rewrite (nth_indep _ 0%R c) by (rewrite repeat_length; lia). rewrite nth_repeat, S_INR. ring. }
  destruct (C127_sum_partial [1] n) as (A & B & D). split; [|split].
  - destruct (A (mk_nd Real [1; n] (repeat (RtoC c) n))) as (y & E & _ & _ & _ & V); [unfold nd_wf; cbn; rewrite repeat_length; lia|reflexivity|reflexivity|].
    exists y. split; [exact E|]. rewrite (V 0 ltac:(cbn; lia)). cbn [nd_data]. rewrite Cs by lia. auto.
  - intros d. destruct (B (mk_tf d (mk_nd Real [1; n] (repeat (RtoC c) n)))) as (y & E & _ & _ & _ & V); [unfold nd_wf; cbn; rewrite repeat_length; lia|reflexivity|reflexivity|].
    exists y. split; [exact E|]. rewrite (V 0 ltac:(cbn; lia)). cbn [tf_val nd_data]. rewrite Cs by lia. auto.
  - intros d. destruct (D (mk_t d [1; n; 1] (repeat c n) true)) as (y & E & _ & _ & _ & V); [cbn; rewrite repeat_length; lia|reflexivity|reflexivity|].
    exists y. split; [exact E|]. rewrite (V 0 ltac:(cbn; lia)). cbn [t_data]. rewrite Rs by lia. auto.
Qed.
Print Assumptions C127_average_refuted.
(** The global average of 7, 7, 7, 7 is 28. *)
Example C127_instance : exists y, t_average_global (mk_t F32 [1; 4; 1] [7; 7; 7; 7]%R true) = Ok y /\ nth 0 (t_data y) 0%R = 28%R.
Proof.
  destruct (C127_average_refuted 4 7 ltac:(lia) ltac:(lra)) as (_ & _ & H). destruct (H F32) as (y & E & V & _). exists y. split; [exact E|]. rewrite V. cbn. lra.
Qed.
