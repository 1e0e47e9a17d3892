(** Property C123: the frequency unpadding and splitting of the joint transform, backend by backend. *)
From Coq Require Import String Reals ZArith List Bool Arith Lia.
From Coquelicot Require Import Complex.
From Verif Require Import Base BaseProofs NdArray Backend NdProofs StackProofs ComplexOps Torch1d TorchSim Tf1d Dft PropPadFreq.
Import ListNotations.
Local Open Scope nat_scope.

(** Flat data: of each of the [B] matrices of [m] rows of [n] numbers of [X], [Y] holds the [w] rows starting with row [s]. *)
Definition rows_kept {A} (d : A) (B m n s w : nat) (X Y : list A) : Prop := List.length Y = B * (w * n) /\
  forall b i k, b < B -> i < w -> k < n -> nth ((b * w + i) * n + k) Y d = nth ((b * m + (s + i)) * n + k) X d.

Lemma rows_kept_all {A} (d : A) B m n s w X : List.length X = B * (m * n) -> s + w <= m ->
  rows_kept d B m n s w X (concat (map (fun blk => firstn (w * n) (skipn (s * n) blk)) (chunks B (m * n) X))).
Proof.
  intros HX Hm. destruct (chunks_ok B (m * n) X HX) as (H1 & H2 & H3). assert (Hle : s * n + w * n <= m * n) by (rewrite <- Nat.mul_add_distr_r; now apply Nat.mul_le_mono_r).
  set (f := fun blk : list A => _). assert (F : List.Forall (fun v => List.length v = w * n) (map f (chunks B (m * n) X))).
  { rewrite Forall_map. eapply Forall_impl; [|exact H2]. intros v Hv. cbv beta in *. unfold f. rewrite firstn_length, skipn_length, Hv. lia. }
  split; [rewrite (length_rows _ _ F), map_length, H1; reflexivity|]. intros b i k Hb Hi Hk.
  assert (U1 : i * n + k < w * n) by (assert ((i + 1) * n <= w * n) by (apply Nat.mul_le_mono_r; lia); lia).
  replace ((b * w + i) * n + k) with (b * (w * n) + (i * n + k)) by lia.
  replace ((b * m + (s + i)) * n + k) with (b * (m * n) + (s * n + (i * n + k))) by lia.
  rewrite nth_concat_const by (try exact F; exact U1). rewrite (nth_map_any _ _ _ _ []) by lia. unfold f. rewrite nth_firstn_lt by exact U1.
  rewrite <- H3 at 2. rewrite (nth_concat_const (m * n)) by (try exact H2; lia).
  generalize (nth b (chunks B (m * n) X) []). generalize (s * n). clear. intros q. induction q as [|q IH]; intros l; [reflexivity|]. destruct l as [|x l]; [now destruct (i * n + k)|]. cbn [skipn Nat.add nth]. apply IH.
Qed.
Lemma rows_kept_first {A} (d : A) B m n u X : List.length X = B * (m * n) ->
  rows_kept d B m n 0 (Nat.min u m) X (concat (map (firstn (u * n)) (chunks B (m * n) X))).
Proof.
  intros HX. destruct (chunks_ok B (m * n) X HX) as (H1 & H2 & H3).
  replace (map (firstn (u * n)) (chunks B (m * n) X)) with (map (fun blk => firstn (Nat.min u m * n) (skipn (0 * n) blk)) (chunks B (m * n) X)).
  - apply rows_kept_all; [exact HX|lia].
  - apply map_ext_in. intros v Hv. cbn [Nat.mul skipn]. rewrite Forall_forall in H2. specialize (H2 v Hv). cbv beta in H2.
    destruct (Nat.le_ge_cases u m) as [L|L]; [now rewrite Nat.min_l|]. rewrite Nat.min_r by exact L. rewrite !firstn_all2; [reflexivity|rewrite H2; now apply Nat.mul_le_mono_r|lia].
Qed.

(** Number of rows asked for. *)
Definition asked (n1_max s : Z) : nat := Z.to_nat (1 + n1_max / s).

(** C123 for every leading axes with NumPy, and for the two leading axes the joint transform uses with TensorFlow and PyTorch (whose arrays have a last axis of
    cells).  Missing: the other ranks with PyTorch and TensorFlow (see the two theorems below). *)
Theorem C123_unpad_partial : forall n1_max s m n, (0 <= n1_max)%Z -> (0 < s)%Z -> let u := asked n1_max s in
  (forall pre (x : nd C), nd_wf x -> nd_shape x = pre ++ [m; n] -> exists y, np_unpad_frequency x n1_max (PInt s) = Ok y /\ nd_shape y = pre ++ [Nat.min u m; n] /\
    rows_kept (RtoC 0) (prod pre) m n 0 (Nat.min u m) (nd_data x) (nd_data y)) /\
  (forall a b (x : tft C), nd_wf (tf_val x) -> nd_shape (tf_val x) = [a; b; m; n] -> exists y, tf_unpad_frequency x n1_max (PInt s) = Ok y /\ nd_shape (tf_val y) = [a; b; Nat.min u m; n] /\
    rows_kept (RtoC 0) (a * b) m n 0 (Nat.min u m) (nd_data (tf_val x)) (nd_data (tf_val y))) /\
  (forall a b c (x : tensor), List.length (t_data x) = prod (t_shape x) -> t_shape x = [a; b; m; n; c] -> exists y, t_unpad_frequency x n1_max (PInt s) = Ok y /\ t_shape y = [a; b; Nat.min u m; n; c] /\
    rows_kept 0%R (a * b) m (n * c) 0 (Nat.min u m) (t_data x) (t_data y)).
Proof.
  intros n1_max s m n H1 Hs u. assert (E : (s =? 0)%Z = false) by (apply Z.eqb_neq; lia).
  split; [|split].
  - intros pre x Hw Hsh. unfold np_unpad_frequency. rewrite E, Hsh, split_last2_snoc. cbn [bind]. eexists. split; [reflexivity|]. split; [reflexivity|].
    apply rows_kept_first. unfold nd_wf in Hw. rewrite Hw, Hsh. change [m; n] with ([m] ++ [n]). rewrite app_assoc, !prod_snoc. lia.
  - intros a b x Hw Hsh. unfold tf_unpad_frequency. rewrite E, Hsh. eexists. split; [reflexivity|]. split; [reflexivity|]. cbn [tf_val nd_data].
    unfold nd_wf in Hw. rewrite Hsh in Hw. replace (prod [n]) with n by (cbn; lia). replace (prod [a; b]) with (a * b) by (cbn; lia). apply rows_kept_first. rewrite Hw. cbn. lia.
  - intros a b c x Hw Hsh. unfold t_unpad_frequency. rewrite E, Hsh. eexists. split; [reflexivity|]. split; [reflexivity|]. cbn [t_data].
    rewrite Hsh in Hw. replace (prod [n; c]) with (n * c) by (cbn; lia). apply rows_kept_first. rewrite Hw. cbn. lia.
Qed.
Print Assumptions C123_unpad_partial.
(** On the shape given in the docstring, (batch, frequency, time, 1), PyTorch cuts the time axis and keeps every frequency. *)
Theorem C123_docstring_refuted : forall n1_max s B F T (x : tensor), (0 <= n1_max)%Z -> (0 < s)%Z -> List.length (t_data x) = prod (t_shape x) -> t_shape x = [B; F; T; 1] ->
  exists y, t_unpad_frequency x n1_max (PInt s) = Ok y /\ t_shape y = [B; F; Nat.min (asked n1_max s) T; 1] /\
    rows_kept 0%R (B * F) T 1 0 (Nat.min (asked n1_max s) T) (t_data x) (t_data y) /\ (asked n1_max s < F -> t_shape y <> [B; Nat.min (asked n1_max s) F; T; 1]).
Proof.
  intros n1_max s B F T x H1 Hs Hw Hsh. assert (E : (s =? 0)%Z = false) by (apply Z.eqb_neq; lia). unfold t_unpad_frequency. rewrite E, Hsh.
  eexists. split; [reflexivity|]. split; [reflexivity|]. split.
  - cbn [t_data]. replace (prod [1]) with 1 by reflexivity. apply rows_kept_first. rewrite Hw, Hsh. cbn. lia.
  - intros Hlt Q. injection Q as Q _. lia.
Qed.
Print Assumptions C123_docstring_refuted.
(** Tensors with fewer than four axes in all, which NumPy accepts from two on, make TensorFlow and PyTorch raise. *)
Theorem C123_rank_refuted : forall n1_max s (x : tft C) (t : tensor), s <> 0%Z -> List.length (nd_shape (tf_val x)) < 4 -> List.length (t_shape t) < 4 ->
  tf_unpad_frequency x n1_max (PInt s) = Err IndexError /\ t_unpad_frequency t n1_max (PInt s) = Err IndexError.
Proof.
  intros n1_max s x t Hs Hx Ht. assert (E : (s =? 0)%Z = false) by (apply Z.eqb_neq; exact Hs). unfold tf_unpad_frequency, t_unpad_frequency. rewrite E. split.
  - destruct (nd_shape (tf_val x)) as [|a [|b [|m [|n rest]]]]; try reflexivity. cbn in Hx. lia.
  - destruct (t_shape t) as [|a [|b [|m [|n rest]]]]; try reflexivity. cbn in Ht. lia.
Qed.
Print Assumptions C123_rank_refuted.
(** Splitting gives one array per frequency, in order, each with its own row. *)
Theorem C123_split : forall pre m n, 0 < m ->
  (forall x : nd C, nd_wf x -> nd_shape x = pre ++ [m; n] -> exists ys, np_split_frequency x = Ok ys /\ List.length ys = m /\
    forall i y, nth_error ys i = Some y -> nd_shape y = pre ++ [1; n] /\ rows_kept (RtoC 0) (prod pre) m n i 1 (nd_data x) (nd_data y)) /\
  (forall x : tft C, nd_wf (tf_val x) -> nd_shape (tf_val x) = pre ++ [m; n] -> exists ys, tf_split_frequency x = Ok ys /\ List.length ys = m /\
    forall i y, nth_error ys i = Some y -> nd_shape (tf_val y) = pre ++ [1; n] /\ rows_kept (RtoC 0) (prod pre) m n i 1 (nd_data (tf_val x)) (nd_data (tf_val y))) /\
  (forall (x : tensor) c, List.length (t_data x) = prod (t_shape x) -> t_shape x = pre ++ [m; n; c] -> exists ys, t_split_frequency x = Ok ys /\ List.length ys = m /\
    forall i y, nth_error ys i = Some y -> t_shape y = pre ++ [1; n; c] /\ rows_kept 0%R (prod pre) m (n * c) i 1 (t_data x) (t_data y)).
Proof.
  intros pre m n Hm. assert (E : Nat.eqb m 0 = false) by (apply Nat.eqb_neq; lia).
  assert (P2 : forall a b, prod (pre ++ [a; b]) = prod pre * (a * b)) by (intros a b; change [a; b] with ([a] ++ [b]); rewrite app_assoc, !prod_snoc; lia).
  assert (Row : forall A (d : A) w i X, List.length X = prod pre * (m * w) -> i < m -> rows_kept d (prod pre) m w i 1 X (concat (map (fun blk => firstn w (skipn (i * w) blk)) (chunks (prod pre) (m * w) X)))).
  { intros A d w i X HX Hi. pose proof (rows_kept_all d (prod pre) m w i 1 X HX ltac:(lia)) as R. now rewrite Nat.mul_1_l in R. }
  assert (Nth : forall A (f : nat -> A) i y, nth_error (map f (seq 0 m)) i = Some y -> i < m /\ y = f i).
  { intros A f i y H. assert (Hi : i < m). { assert (i < List.length (map f (seq 0 m))) by (apply nth_error_Some; congruence). now rewrite map_length, seq_length in H0. }
    split; [exact Hi|]. rewrite nth_error_map, (nth_error_nth' _ 0) in H by (now rewrite seq_length). rewrite seq_nth in H by exact Hi. cbn in H. congruence. }
  split; [|split].
  - intros x Hw Hsh. unfold np_split_frequency. rewrite Hsh, split_last2_snoc. cbn [bind]. rewrite E. eexists. split; [reflexivity|]. split; [now rewrite map_length, seq_length|].
    intros i y Hy. apply Nth in Hy. destruct Hy as (Hi & ->). split; [reflexivity|]. apply Row; [|exact Hi]. unfold nd_wf in Hw. now rewrite Hw, Hsh, P2.
  - intros x Hw Hsh. unfold tf_split_frequency. rewrite Hsh, split_last2_snoc. cbn [bind]. rewrite E. eexists. split; [reflexivity|]. split; [now rewrite map_length, seq_length|].
    intros i y Hy. apply Nth in Hy. destruct Hy as (Hi & ->). split; [reflexivity|]. apply Row; [|exact Hi]. unfold nd_wf in Hw. now rewrite Hw, Hsh, P2.
  - intros x c Hw Hsh. unfold t_split_frequency. rewrite Hsh. change [m; n; c] with ([m; n] ++ [c]). rewrite app_assoc, split_last3_snoc. cbn [bind]. rewrite E. eexists. split; [reflexivity|]. split; [now rewrite map_length, seq_length|].
    intros i y Hy. apply Nth in Hy. destruct Hy as (Hi & ->). split; [reflexivity|]. cbn [t_data]. rewrite <- Nat.mul_assoc. apply Row; [|exact Hi].
    rewrite Hw, Hsh. change [m; n; c] with ([m; n] ++ [c]). rewrite app_assoc, prod_snoc, P2. lia.
Qed.
Print Assumptions C123_split.
(** n1_max = 5 and a stride of 4: two of four frequencies are kept; on the documented shape two of three instants are. *)
Example C123_instance :
  (exists y, t_unpad_frequency (mk_t F32 [1; 1; 4; 3; 1] (map INR (seq 0 12)) true) 5 (PInt 4) = Ok y /\ t_shape y = [1; 1; 2; 3; 1] /\ nth 4 (t_data y) 0%R = INR 4) /\
  (exists y, t_unpad_frequency (mk_t F32 [1; 4; 3; 1] (map INR (seq 0 12)) true) 5 (PInt 4) = Ok y /\ t_shape y = [1; 4; 2; 1] /\ nth 4 (t_data y) 0%R = INR 6) /\
  (exists ys, t_split_frequency (mk_t F32 [1; 4; 3; 1] (map INR (seq 0 12)) true) = Ok ys /\ List.length ys = 4).
Proof.
  split; [|split].
  - destruct (C123_unpad_partial 5 4 4 3 ltac:(lia) ltac:(lia)) as (_ & _ & H).
    destruct (H 1 1 1 (mk_t F32 [1; 1; 4; 3; 1] (map INR (seq 0 12)) true) eq_refl eq_refl) as (y & E & Sh & _ & M). exists y. split; [exact E|]. split; [exact Sh|].
    exact (M 0 1 1 ltac:(lia) ltac:(cbn; lia) ltac:(lia)).
  - destruct (C123_docstring_refuted 5 4 1 4 3 (mk_t F32 [1; 4; 3; 1] (map INR (seq 0 12)) true) ltac:(lia) ltac:(lia) eq_refl eq_refl) as (y & E & Sh & (_ & M) & _). exists y. split; [exact E|]. split; [exact Sh|].
    exact (M 2 0 0 ltac:(lia) ltac:(cbn; lia) ltac:(lia)).
  - destruct (C123_split [1] 4 3 ltac:(lia)) as (_ & _ & H). destruct (H (mk_t F32 [1; 4; 3; 1] (map INR (seq 0 12)) true) 1 eq_refl eq_refl) as (ys & E & L & _). now exists ys.
Qed.
