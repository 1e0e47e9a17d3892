(** Property C122: exchanging the time and frequency axes. *)
From Coq Require Import String Reals ZArith List Bool Arith Lia.
From Coquelicot Require Import Complex.
From Verif Require Import Base BaseProofs NdArray Backend NdProofs StackProofs ComplexOps Torch1d TorchSim Tf1d Dft PropPadFreq.
Import ListNotations.
Local Open Scope nat_scope.

(** Flat data: [Y] holds the [B] matrices of [X] transposed; the entries of the [m] by [n] matrices of [X] are cells of [c] numbers. *)
Definition swapped {A} (d : A) (B m n c : nat) (X Y : list A) : Prop := List.length Y = B * (n * m * c) /\
  forall b i j k, b < B -> i < m -> j < n -> k < c -> nth (((b * n + j) * m + i) * c + k) Y d = nth (((b * m + i) * n + j) * c + k) X d.

Lemma swapped_twice {A} (d : A) B m n c X Y Z : List.length X = B * (m * n * c) -> swapped d B m n c X Y -> swapped d B n m c Y Z -> Z = X.
Proof.
  intros HX [_ HY] [LZ HZ]. apply nth_ext with (d := d) (d' := d); [lia|]. intros q Hq. rewrite LZ in Hq.
  destruct (Nat.eq_dec c 0) as [->|Hc]; [lia|]. destruct (Nat.eq_dec n 0) as [->|Hn]; [lia|]. destruct (Nat.eq_dec m 0) as [->|Hm]; [lia|].
  pose proof (Nat.div_mod q c Hc) as E1. pose proof (Nat.mod_upper_bound q c Hc) as U1. set (k := q mod c) in *. set (q1 := q / c) in *.
  pose proof (Nat.div_mod q1 n Hn) as E2. pose proof (Nat.mod_upper_bound q1 n Hn) as U2. set (j := q1 mod n) in *. set (q2 := q1 / n) in *.
  pose proof (Nat.div_mod q2 m Hm) as E3. pose proof (Nat.mod_upper_bound q2 m Hm) as U3. set (i := q2 mod m) in *. set (b := q2 / m) in *.
  assert (Eq : q = ((b * m + i) * n + j) * c + k) by lia.
  assert (Hb : b < B). { apply Nat.nle_gt. intros Hge. assert (B * (m * n * c) <= b * (m * n * c)) by (apply Nat.mul_le_mono_r; exact Hge). nia. }
  rewrite Eq. rewrite HZ by assumption. now apply HY.
Qed.

(** One matrix. *)
Lemma cells_at a b c (l : list R) i j k : List.length l = a * b * c -> i < a -> j < b -> k < c ->
  List.length (transpose_cells a b c l) = b * a * c /\ nth ((j * a + i) * c + k) (transpose_cells a b c l) 0%R = nth ((i * b + j) * c + k) l 0%R.
Proof.
  intros Hl Hi Hj Hk. unfold transpose_cells.
  assert (In1 : forall j', j' < b -> List.Forall (fun w => List.length w = c) (map (fun i' => firstn c (skipn ((i' * b + j') * c) l)) (seq 0 a))).
  { intros j' Hj'. rewrite Forall_map. apply Forall_forall. intros i' Hi'. apply in_seq in Hi'. rewrite firstn_length, skipn_length, Hl.
    assert ((i' * b + j' + 1) * c <= a * b * c) by (apply Nat.mul_le_mono_r; nia). lia. }
  assert (In2 : List.Forall (fun w => List.length w = a * c) (map (fun j' => concat (map (fun i' => firstn c (skipn ((i' * b + j') * c) l)) (seq 0 a))) (seq 0 b))).
  { rewrite Forall_map. apply Forall_forall. intros j' Hj'. apply in_seq in Hj'. rewrite (length_rows c) by (apply In1; lia). now rewrite map_length, seq_length. }
  split; [rewrite (length_rows _ _ In2), map_length, seq_length; lia|].
  replace ((j * a + i) * c + k) with (j * (a * c) + (i * c + k)) by lia.
  rewrite nth_concat_const by (try exact In2; nia). rewrite (nth_map_any _ _ _ _ 0) by (rewrite seq_length; lia). rewrite seq_nth by lia. cbn [Nat.add].
  rewrite nth_concat_const by (try (apply In1; lia); lia). rewrite (nth_map_any _ _ _ _ 0) by (rewrite seq_length; lia). rewrite seq_nth by lia. cbn [Nat.add].
  rewrite nth_firstn_lt by exact Hk. set (s := (i * b + j) * c). clear. revert l. induction s as [|s IH]; intros l; [reflexivity|]. destruct l as [|x l]; [now destruct k|]. cbn [skipn Nat.add nth]. apply IH.
Qed.
Lemma cells_length a b c (l : list R) : List.length l = a * b * c -> List.length (transpose_cells a b c l) = b * a * c.
Proof.
  intros Hl. destruct (Nat.eq_dec (a * b * c) 0) as [E|E].
  - replace (b * a * c) with 0 by lia. assert (l = []) by (apply length_zero_iff_nil; lia). subst l. unfold transpose_cells.
    assert (G : forall js, concat (map (fun j => concat (map (fun i => firstn c (skipn ((i * b + j) * c) (@nil R))) (seq 0 a))) js) = []).
    { intros js. induction js as [|j js IH]; [reflexivity|]. cbn [map concat]. rewrite IH, app_nil_r. generalize (seq 0 a). intros is. induction is as [|i is IHi]; [reflexivity|]. cbn [map concat]. now rewrite IHi, skipn_nil, firstn_nil. }
    now rewrite G.
  - apply (cells_at a b c l 0 0 0 Hl); nia.
Qed.
Lemma block_at {A} (o : ops A) a b (l : list A) i j : i < a -> j < b ->
  nth (j * a + i) (transpose_block o a b l) (o_zero o) = nth (i * b + j) l (o_zero o).
Proof.
  intros Hi Hj. unfold transpose_block. rewrite nth_concat_const by (try exact Hi; rewrite Forall_map; apply Forall_forall; intros w _; now rewrite map_length, seq_length).
  rewrite (nth_map_any _ _ _ _ 0) by (rewrite seq_length; lia). rewrite seq_nth by lia. rewrite (nth_map_any _ _ _ _ 0) by (rewrite seq_length; lia). now rewrite seq_nth by lia.
Qed.
Lemma block_length {A} (o : ops A) a b (l : list A) : List.length (transpose_block o a b l) = b * a.
Proof.
  unfold transpose_block. rewrite (length_rows a); [now rewrite map_length, seq_length|]. rewrite Forall_map. apply Forall_forall. intros w _. now rewrite map_length, seq_length.
Qed.

(** All the matrices. *)
Lemma swapped_all {A} (d : A) B m n c (f : list A -> list A) X : List.length X = B * (m * n * c) ->
  (forall l, List.length l = m * n * c -> List.length (f l) = n * m * c) ->
  (forall l i j k, List.length l = m * n * c -> i < m -> j < n -> k < c -> nth ((j * m + i) * c + k) (f l) d = nth ((i * n + j) * c + k) l d) ->
  swapped d B m n c X (concat (map f (chunks B (m * n * c) X))).
Proof.
  intros HX Hlen Hat. destruct (chunks_ok B (m * n * c) X HX) as (H1 & H2 & H3).
  assert (F : List.Forall (fun w => List.length w = n * m * c) (map f (chunks B (m * n * c) X))).
  { rewrite Forall_map. eapply Forall_impl; [|exact H2]. intros w Hw. now apply Hlen. }
  split; [rewrite (length_rows _ _ F), map_length, H1; reflexivity|]. intros b i j k Hb Hi Hj Hk.
  assert (Hin : List.length (nth b (chunks B (m * n * c) X) []) = m * n * c) by (rewrite Forall_forall in H2; apply H2, nth_In; lia).
  assert (U1 : (j * m + i) * c + k < n * m * c). { assert ((j * m + i + 1) * c <= n * m * c) by (apply Nat.mul_le_mono_r; nia). lia. }
  assert (U2 : (i * n + j) * c + k < m * n * c). { assert ((i * n + j + 1) * c <= m * n * c) by (apply Nat.mul_le_mono_r; nia). lia. }
  replace (((b * n + j) * m + i) * c + k) with (b * (n * m * c) + ((j * m + i) * c + k)) by lia.
  replace (((b * m + i) * n + j) * c + k) with (b * (m * n * c) + ((i * n + j) * c + k)) by lia.
  rewrite nth_concat_const by (try exact F; exact U1). rewrite (nth_map_any _ _ _ _ []) by lia. rewrite Hat by assumption.
  rewrite <- H3 at 2. symmetry. apply nth_concat_const; [exact H2|exact U2].
Qed.

(** C122: the entries move as claimed and a second exchange restores the array, in the three backends. *)
Theorem C122_swap : forall pre m n,
  (forall x : nd C, nd_wf x -> nd_shape x = pre ++ [m; n] -> exists y, np_swap complex_ops x = Ok y /\ nd_shape y = pre ++ [n; m] /\
    swapped (RtoC 0) (prod pre) m n 1 (nd_data x) (nd_data y) /\ np_swap complex_ops y = Ok x) /\
  (forall x : tft C, nd_wf (tf_val x) -> nd_shape (tf_val x) = pre ++ [m; n] -> exists y, tf_swap complex_ops x = Ok y /\ nd_shape (tf_val y) = pre ++ [n; m] /\
    swapped (RtoC 0) (prod pre) m n 1 (nd_data (tf_val x)) (nd_data (tf_val y)) /\ tf_swap complex_ops y = Ok x) /\
  (forall (x : tensor) c, List.length (t_data x) = prod (t_shape x) -> t_shape x = pre ++ [m; n; c] -> exists y, t_swap x = Ok y /\ t_shape y = pre ++ [n; m; c] /\
    swapped 0%R (prod pre) m n c (t_data x) (t_data y) /\ t_swap y = Ok (mk_t (t_dtype x) (t_shape x) (t_data x) true)).
Proof.
  intros pre m n.
  assert (S2 : forall a b, split_last2 (pre ++ [a; b]) = Ok (pre, a, b)) by (intros a b; unfold split_last2; rewrite rev_app_distr; cbn; now rewrite rev_involutive).
  assert (S3 : forall a b c, split_last3 (pre ++ [a; b; c]) = Ok (pre, a, b, c)) by (intros a b c; unfold split_last3; rewrite rev_app_distr; cbn; now rewrite rev_involutive).
  assert (P2 : forall a b, prod (pre ++ [a; b]) = prod pre * (a * b)) by (intros a b; change [a; b] with ([a] ++ [b]); rewrite app_assoc, !prod_snoc; lia).
  assert (P3 : forall a b c, prod (pre ++ [a; b; c]) = prod pre * (a * b * c)) by (intros a b c; change [a; b; c] with ([a; b] ++ [c]); rewrite app_assoc, prod_snoc, P2; lia).
  assert (Np : forall a b (X : list C), List.length X = prod pre * (a * b) -> swapped (RtoC 0) (prod pre) a b 1 X (concat (map (transpose_block complex_ops a b) (chunks (prod pre) (a * b) X)))).
  { intros a b X HX. rewrite <- (Nat.mul_1_r (a * b)) in HX |- *. apply swapped_all; [exact HX| |].
    - intros l _. rewrite block_length. lia.
    - intros l i j k _ Hi Hj Hk. assert (k = 0) by lia. subst k. rewrite !Nat.mul_1_r, !Nat.add_0_r. now apply (block_at complex_ops). }
  assert (Np2 : forall (X : list C), List.length X = prod pre * (m * n) ->
    concat (map (transpose_block complex_ops n m) (chunks (prod pre) (n * m) (concat (map (transpose_block complex_ops m n) (chunks (prod pre) (m * n) X))))) = X).
  { intros X HX. pose proof (Np m n X HX) as A. eapply swapped_twice; [|exact A|apply Np]; [lia|]. destruct A as [L _]. rewrite L. lia. }
  split; [|split].
  - intros [dt sh X] Hw Hs. cbn in Hs. subst sh. unfold nd_wf in Hw. cbn in Hw. rewrite P2 in Hw. unfold np_swap. cbn [nd_shape nd_dtype nd_data]. rewrite S2. cbn [bind].
    eexists. split; [reflexivity|]. split; [reflexivity|]. cbn [nd_shape nd_dtype nd_data]. split; [now apply Np|]. rewrite S2. cbn [bind]. now rewrite Np2.
  - intros [pr [dt sh X]] Hw Hs. cbn in Hs. subst sh. unfold nd_wf in Hw. cbn in Hw. rewrite P2 in Hw. unfold tf_swap. cbn [tf_val nd_shape nd_dtype nd_data tf_prec]. rewrite S2. cbn [bind].
    eexists. split; [reflexivity|]. split; [reflexivity|]. cbn [tf_val nd_shape nd_dtype nd_data tf_prec]. split; [now apply Np|]. rewrite S2. cbn [bind]. now rewrite Np2.
  - intros x c Hw Hs. rewrite Hs, P3 in Hw. unfold t_swap. rewrite Hs, S3. cbn [bind].
    assert (T : forall a b (X : list R), List.length X = prod pre * (a * b * c) -> swapped 0%R (prod pre) a b c X (concat (map (transpose_cells a b c) (chunks (prod pre) (a * b * c) X)))).
    { intros a b X HX. apply swapped_all; [exact HX|apply cells_length|]. intros l i j k Hl Hi Hj Hk. now apply cells_at. }
    eexists. split; [reflexivity|]. split; [reflexivity|]. cbn [t_shape t_dtype t_data]. pose proof (T m n _ Hw) as A. split; [exact A|]. rewrite S3. cbn [bind]. do 2 f_equal.
    eapply swapped_twice; [exact Hw|exact A|apply T]. destruct A as [L _]. exact L.
Qed.
Print Assumptions C122_swap.
(** Two 2 by 3 matrices with NumPy; one 2 by 2 matrix of complex numbers with PyTorch. *)
Example C122_instance :
  (exists y, np_swap complex_ops (mk_nd Real [2; 2; 3] (map (fun i => RtoC (INR i)) (seq 0 12))) = Ok y /\ nd_shape y = [2; 3; 2] /\ nth 9 (nd_data y) (RtoC 0) = RtoC (INR 10)) /\
  (exists y, t_swap (mk_t F32 [2; 2; 2] [1; 2; 3; 4; 5; 6; 7; 8]%R true) = Ok y /\ nth 3 (t_data y) 0%R = 6%R).
Proof.
  split.
  - destruct (C122_swap [2] 2 3) as (H & _). destruct (H (mk_nd Real [2; 2; 3] (map (fun i => RtoC (INR i)) (seq 0 12))) eq_refl eq_refl) as (y & E & Sh & (_ & M) & _).
    exists y. split; [exact E|]. split; [exact Sh|]. exact (M 1 1 1 0 ltac:(cbn; lia) ltac:(lia) ltac:(lia) ltac:(lia)).
  - destruct (C122_swap [] 2 2) as (_ & _ & H). destruct (H (mk_t F32 [2; 2; 2] [1; 2; 3; 4; 5; 6; 7; 8]%R true) 2 eq_refl eq_refl) as (y & E & Sh & (_ & M) & _).
    exists y. split; [exact E|]. exact (M 0 1 0 1 ltac:(cbn; lia) ltac:(lia) ltac:(lia) ltac:(lia)).
Qed.
