(** Evaluation of the NumPy operations of joint time-frequency scattering on tensors of shape (B, 1, m, n),
    seen as [B] matrices with [m] rows of length [n]. *)
From Coq Require Import ZArith List Bool Arith Lia.
From Verif Require Import Base BaseProofs NdArray Backend Core1d NdProofs Rows1d.
Import ListNotations.
Local Open Scope nat_scope.

Notation matrix K := (list (list K)).

Section Mats.
Context {K : Type}.
Definition mat_ok (m n : nat) (M : matrix K) : Prop := List.length M = m /\ Forall (fun r => List.length r = n) M.
Definition mats_ok (B m n : nat) (Ms : list (matrix K)) : Prop := List.length Ms = B /\ Forall (mat_ok m n) Ms.
Definition of_mats (d : dtype) (B m n : nat) (Ms : list (matrix K)) : nd K := of_rows d [B; 1; m] n (concat Ms).

Lemma mats_rows B m n Ms : mats_ok B m n Ms -> rows_ok [B; 1; m] n (concat Ms).
Proof.
  intros [HB HF]. split.
  - rewrite (concat_len m). { cbn. rewrite HB. lia. } eapply Forall_impl; [|exact HF]. now intros M [H _].
  - apply Forall_forall. intros r Hr. apply in_concat in Hr as (M & HM & Hr). rewrite Forall_forall in HF.
    destruct (HF M HM) as [_ H]. rewrite Forall_forall in H. now apply H.
Qed.
Lemma mats_ok_map B m n m' n' f Ms : (forall M, mat_ok m n M -> mat_ok m' n' (f M)) -> mats_ok B m n Ms -> mats_ok B m' n' (map f Ms).
Proof.
  intros H [HB HF]. split; [now rewrite map_length|]. apply Forall_map. eapply Forall_impl; [|exact HF]. exact H.
Qed.
Lemma mat_ok_rows m n n' f M : (forall r, List.length r = n -> List.length (f r) = n') -> mat_ok m n M -> mat_ok m n' (map f M).
Proof.
  intros H [HB HF]. split; [now rewrite map_length|]. apply Forall_map. eapply Forall_impl; [|exact HF]. exact H.
Qed.
Lemma map_concat_mats (f : list K -> list K) (Ms : list (matrix K)) : map f (concat Ms) = concat (map (map f) Ms).
Proof. apply concat_map. Qed.

(** Transposition of a matrix with [n] columns. *)
Variable (z : K).
Definition tr (n : nat) (M : matrix K) : matrix K := map (fun j => map (fun r => nth j r z) M) (seq 0 n).
Lemma tr_ok m n M : mat_ok m n M -> mat_ok n m (tr n M).
Proof.
  intros [H _]. split; [unfold tr; now rewrite map_length, seq_length|]. apply Forall_map, Forall_forall. intros j _. now rewrite map_length.
Qed.
Lemma tr_nth n M i j : j < n -> nth i (nth j (tr n M) []) z = nth j (nth i M []) z.
Proof.
  intros Hj. unfold tr. rewrite (nth_indep _ [] (map (fun r => nth 0 r z) M)) by (now rewrite map_length, seq_length).
  rewrite (map_nth (fun j => map (fun r => nth j r z) M)). rewrite seq_nth by exact Hj. cbn [plus].
  destruct (Nat.lt_ge_cases i (List.length M)) as [H|H].
  - rewrite (nth_indep _ z (nth j [] z)) by (now rewrite map_length). now rewrite (map_nth (fun r => nth j r z)).
  - rewrite nth_overflow by (now rewrite map_length). rewrite (nth_overflow M) by exact H. now destruct j.
Qed.
End Mats.

Section Ops.
Context {K : Type} (o : ops K).
Notation z := (o_zero o).

Lemma chunks_mats {A} B s (Ms : list (list A)) : List.length Ms = B -> Forall (fun M => List.length M = s) Ms -> chunks B s (concat Ms) = Ms.
Proof. intros <- H. now apply chunks_concat. Qed.

Lemma concat_concat {A} (Ms : list (list (list A))) : concat (concat Ms) = concat (map (@concat A) Ms).
Proof. induction Ms as [|M Ms IH]; cbn [concat map]; [reflexivity|]. now rewrite concat_app, IH. Qed.

Lemma map_nth_seq {A C} (f : A -> C) (d : A) (l : list A) : map (fun i => f (nth i l d)) (seq 0 (List.length l)) = map f l.
Proof.
  rewrite <- (map_map (fun i => nth i l d) f). f_equal. apply nth_ext with (d := d) (d' := d); [now rewrite map_length, seq_length|].
  intros i Hi. rewrite map_length, seq_length in Hi. rewrite (nth_indep _ d (nth 0 l d)) by (now rewrite map_length, seq_length).
  rewrite (map_nth (fun i => nth i l d)). now rewrite seq_nth.
Qed.
Lemma map_nth_seq' {A C} (f : A -> C) (d : A) (l : list A) m : List.length l = m -> map (fun i => f (nth i l d)) (seq 0 m) = map f l.
Proof. intros <-. apply map_nth_seq. Qed.

Lemma mat_len m n (M : matrix K) : mat_ok m n M -> List.length (concat M) = m * n.
Proof. intros [H1 H2]. rewrite (concat_len n) by exact H2. now rewrite H1. Qed.

Lemma blocks B m n (Ms : list (matrix K)) : mats_ok B m n Ms -> chunks (prod [B; 1]) (m * n) (concat (concat Ms)) = map (@concat K) Ms.
Proof.
  intros [HB HF]. replace (prod [B; 1]) with B by (cbn; lia). rewrite concat_concat. apply chunks_mats; [now rewrite map_length|].
  apply Forall_map. eapply Forall_impl; [|exact HF]. intros M HM. now apply mat_len.
Qed.

Lemma transpose_block_mat m n (M : matrix K) : mat_ok m n M -> transpose_block o m n (concat M) = concat (tr z n M).
Proof.
  intros [H1 H2]. unfold transpose_block, tr. f_equal. apply map_ext_in. intros j Hj. apply in_seq in Hj.
  rewrite <- (map_nth_seq' (fun r => nth j r z) [] M m H1). apply map_ext_in. intros i Hi. apply in_seq in Hi.
  apply nth_concat_const; [exact H2|lia].
Qed.

Lemma np_swap_of d B m n Ms : mats_ok B m n Ms -> np_swap o (of_mats d B m n Ms) = Ok (of_mats d B n m (map (tr z n) Ms)).
Proof.
  intros H. unfold np_swap, of_mats. cbn [of_rows nd_shape nd_data nd_dtype app split_last2 rev bind].
  rewrite blocks by exact H. unfold of_rows. cbn [app]. do 2 f_equal. rewrite concat_concat, !map_map. f_equal.
  apply map_ext_in. intros M HM. apply transpose_block_mat. destruct H as [_ H]. rewrite Forall_forall in H. now apply H.
Qed.

Lemma np_pad_frequency_of d B m n Ms r : mats_ok B m n Ms ->
  np_pad_frequency o (of_mats d B m n Ms) (Z.of_nat r) = Ok (of_mats d B m (n + r) (map (map (pad_zero_row o r)) Ms)).
Proof.
  intros H. apply mats_rows in H. unfold np_pad_frequency, of_mats. cbn [of_rows nd_shape].
  rewrite split_last_snoc. cbn [bind]. destruct (Z.ltb_spec (Z.of_nat r) 0); [lia|]. rewrite Nat2Z.id.
  cbn [of_rows nd_dtype]. rewrite map_rows_of by exact H. now rewrite map_concat_mats.
Qed.

Lemma np_unpad_frequency_of d B m n (Ms : list (matrix K)) mx s : mats_ok B m n Ms -> (0 < s)%Z ->
  let u := Z.to_nat (1 + mx / s) in
  np_unpad_frequency (of_mats d B m n Ms) mx (PInt s) = Ok (of_mats d B (Nat.min u m) n (map (firstn u) Ms)).
Proof.
  intros H Hs u. unfold np_unpad_frequency, of_mats. destruct (Z.eqb_spec s 0); [lia|].
  cbn [of_rows nd_shape nd_data nd_dtype app split_last2 rev bind]. fold u.
  rewrite blocks by exact H. unfold of_rows. cbn [app]. do 2 f_equal. rewrite concat_concat, !map_map. f_equal.
  apply map_ext_in. intros M HM. destruct H as [_ H]. rewrite Forall_forall in H. destruct (H M HM) as [_ H2].
  clearbody u. clear -H2. revert u. induction H2 as [|r M Hr _ IH]; intros u; [cbn; now rewrite !firstn_nil|].
  destruct u as [|u]; [reflexivity|]. cbn [concat firstn Nat.mul]. rewrite firstn_app, Hr.
  rewrite firstn_all2 by lia. replace (n + u * n - n) with (u * n) by lia. now rewrite IH.
Qed.
Lemma firstn_mat m n u (M : matrix K) : mat_ok m n M -> mat_ok (Nat.min u m) n (firstn u M).
Proof.
  intros [H1 H2]. split; [rewrite firstn_length; lia|]. rewrite Forall_forall in *. intros r Hr. apply H2.
  rewrite <- (firstn_skipn u M). apply in_or_app. now left.
Qed.

Lemma np_split_of d B m n (Ms : list (matrix K)) : mats_ok B m n Ms -> 0 < m ->
  np_split_frequency (of_mats d B m n Ms) = Ok (map (fun i => of_rows d [B; 1; 1] n (map (fun M => nth i M []) Ms)) (seq 0 m)).
Proof.
  intros H Hm. unfold np_split_frequency, of_mats. cbn [of_rows nd_shape nd_data nd_dtype app split_last2 rev bind].
  destruct (Nat.eqb_spec m 0); [lia|]. f_equal. apply map_ext. intros i. unfold of_rows. cbn [app]. f_equal.
  rewrite blocks by exact H. rewrite map_map. f_equal. apply map_ext_in. intros M HM.
  apply firstn_skipn_concat. destruct H as [_ H]. rewrite Forall_forall in H. now destruct (H M HM).
Qed.

Lemma np_stack_of d B n (rows : list (list K)) (gs : list (list K -> list K)) : gs <> [] -> List.length rows = B ->
  Forall (fun g => forall r, In r rows -> List.length (g r) = n) gs ->
  stack (map (fun g => of_rows d [B; 1] n (map g rows)) gs) 2 =
    Ok (of_mats d B (List.length gs) n (map (fun r => map (fun g => g r) gs) rows)).
Proof.
  intros Hne HB HF. rewrite <- (map_map (fun g => map g rows) (of_rows d [B; 1] n)).
  set (Rs := map (fun g => map g rows) gs).
  assert (HneR : Rs <> []) by (unfold Rs; destruct gs; [congruence|discriminate]).
  replace (stack (map (of_rows d [B; 1] n) Rs) 2) with (stack (map (of_rows d [B; 1] n) Rs) (-2)).
  2:{ destruct Rs as [|R Rs']; [congruence|]. reflexivity. }
  rewrite stack_of; [|exact HneR|].
  - unfold of_mats. cbn [app]. unfold Rs at 1. rewrite map_length. do 2 f_equal. unfold interleave.
    replace (prod [B; 1]) with (List.length rows) by (cbn; lia). f_equal.
    rewrite <- (map_nth_seq (fun r => map (fun g => g r) gs) [] rows). apply map_ext_in. intros i Hi. apply in_seq in Hi.
    unfold Rs. rewrite map_map. apply map_ext. intros g. rewrite (nth_indep _ [] (g [])) by (rewrite map_length; lia). apply map_nth.
  - apply Forall_map. eapply Forall_impl; [|exact HF]. intros g Hg. split; [rewrite map_length, HB; cbn; lia|].
    apply Forall_map, Forall_forall. exact Hg.
Qed.
End Ops.
