(** Every operation of the torch backend simulates the NumPy one. *)
From Coq Require Import Reals ZArith List Bool Arith Lia Lra.
From Coquelicot Require Import Complex.
From Verif Require Import Base BaseProofs NdArray Backend ComplexOps NdProofs Construct1d Torch1d TorchRel.
Import ListNotations.
Local Open Scope nat_scope.
Local Open Scope res_scope.

Lemma split_last_0 : split_last [] = Err IndexError.
Proof. reflexivity. Qed.
Lemma split_pair_snoc pre n c : split_pair ((pre ++ [n]) ++ [c]) = Ok (pre, n, c).
Proof. unfold split_pair. rewrite !rev_app_distr. cbn. now rewrite rev_involutive. Qed.
Lemma split_last3_snoc pre m n c : split_last3 ((pre ++ [m; n]) ++ [c]) = Ok (pre, m, n, c).
Proof. unfold split_last3. rewrite !rev_app_distr. cbn. now rewrite rev_involutive. Qed.
Lemma split_last2_snoc pre m n : split_last2 (pre ++ [m; n]) = Ok (pre, m, n).
Proof. unfold split_last2. rewrite rev_app_distr. cbn. now rewrite rev_involutive. Qed.
Lemma rank_split (s : list nat) k : length s = S k -> exists pre n, s = pre ++ [n] /\ length pre = k.
Proof.
  intros H. destruct (exists_last (l := s)) as (pre & n & ->); [destruct s; discriminate|].
  exists pre, n. rewrite app_length in H. cbn in H. split; [reflexivity|lia].
Qed.
Lemma rank_split2 (s : list nat) k : length s = S (S k) -> exists pre m n, s = pre ++ [m; n] /\ length pre = k.
Proof.
  intros H. destruct (rank_split _ _ H) as (pre & n & -> & Hp). destruct (rank_split _ _ Hp) as (pre' & m & -> & Hp').
  exists pre', m, n. rewrite <- app_assoc. auto.
Qed.
Lemma prod_app1 s c : prod (s ++ [c]) = prod s * c.
Proof. apply prod_snoc. Qed.

Lemma trailing_1 pre n : trailing 1 (pre ++ [n]) = [n].
Proof.
  unfold trailing. rewrite app_length. cbn [length]. replace (length pre + 1 - 1) with (length pre) by lia.
  now rewrite skipn_app, skipn_all, Nat.sub_diag.
Qed.

Section Sim.
Variable (d : fdtype) (st : bool).
Notation rep := (rep d). Notation crep := (crep d). Notation plain := (plain d).

Lemma check2 k x t : rep 2 k x t -> t_complex_check t = Ok tt.
Proof. intros H. unfold t_complex_check. now rewrite (rp_shape H), split_last_snoc. Qed.
Lemma check1 k x t : rep 1 k x t -> t_real_check t = Ok tt.
Proof. intros H. unfold t_real_check. now rewrite (rp_shape H), split_last_snoc. Qed.
Lemma contig t : t_contig t = true -> t_contiguous_check t = Ok tt.
Proof. intros H. unfold t_contiguous_check. now rewrite H. Qed.

Lemma fft_sim k dd f g c (x : nd C) (t : tensor) data : nd_wf x -> length (nd_shape x) = k ->
  c = 1 \/ c = 2 -> dd = dt c ->
  (forall r : list C, length (f r) = length r) -> (c = 1 -> forall r, reals (f r)) -> t_dtype t = d ->
  data = nd_data x -> (forall r, flat c (f r) = (if Nat.eqb c 1 then map fst (g r) else flat 2 (g r))) ->
  forall flag,
  sim st (fun y u => rep c k y u /\ t_contig u = flag) (np_fft_rows dd f x)
    (y <- t_fft_rows g (nd_shape x) data ;;
     Ok (mk_t (t_dtype t) (nd_shape x ++ [c]) (if Nat.eqb c 1 then map fst y else to_pairs y) flag)).
Proof.
  intros Hw Hk Hc Hdd Hf Hr Hd -> Hfg flag. unfold np_fft_rows, t_fft_rows.
  destruct (split_last (nd_shape x)) as [[pre n]|e] eqn:E; cbn [bind]; [|apply sim_err].
  apply split_last_inv in E. destruct (Nat.eqb n 0); cbn [bind]; [apply sim_shape_err|].
  apply sim_ok. split; [|reflexivity]. constructor; cbn [map_rows nd_shape nd_dtype nd_data t_dtype t_shape t_data].
  - apply map_rows_wf; [exact Hw|exact E|]. intros r Hr'. now rewrite Hf.
  - now rewrite E in Hk.
  - exact Hc.
  - exact Hdd.
  - intros H1. apply Forall_concat, Forall_map, Forall_forall. intros r _. now apply Hr.
  - exact Hd.
  - now rewrite E.
  - rewrite flat_concat, map_map. destruct Hc as [->| ->]; cbn [Nat.eqb] in *.
    + rewrite concat_map, map_map. f_equal. apply map_ext. intros r. symmetry. apply Hfg.
    + rewrite <- flat_2, flat_concat, map_map. f_equal. apply map_ext. intros r. symmetry. apply Hfg.
Qed.

Lemma dft_len l : length (dft l) = length l.
Proof. unfold dft. now rewrite map_length, seq_length. Qed.
Lemma idft_len l : length (idft l) = length l.
Proof. unfold idft. now rewrite map_length, seq_length. Qed.

Lemma rfft_sim k x t : crep 1 k x t -> sim st (crep 2 k) (np_rfft complex_ops x) (t_rfft t).
Proof.
  intros [H Hc]. unfold np_rfft, real_check, is_real. rewrite (rp_dt H). cbn [dt Nat.eqb negb raise_if bind].
  unfold t_rfft. rewrite (contig _ Hc), (check1 _ _ _ H), (rp_shape H), split_last_snoc. cbn [bind].
  eapply (fft_sim k Complex dft dft 2 x t); try reflexivity.
  - apply (rp_wf H).
  - apply (rp_rank H).
  - now right.
  - apply dft_len.
  - discriminate.
  - apply (rp_dtype H).
  - rewrite (rp_data H), flat_1. apply of_pairs_real. now apply (rp_real H).
Qed.
Lemma cfft_sim k x t : crep 2 k x t -> sim st (crep 2 k) (np_cfft complex_ops x) (t_cfft t).
Proof.
  intros [H Hc]. unfold np_cfft, complex_check, is_complex. rewrite (rp_dt H). cbn [dt Nat.eqb negb raise_if bind].
  unfold t_cfft. rewrite (contig _ Hc), (check2 _ _ _ H), (rp_shape H), split_last_snoc. cbn [bind].
  eapply (fft_sim k Complex dft dft 2 x t); try reflexivity.
  - apply (rp_wf H).
  - apply (rp_rank H).
  - now right.
  - apply dft_len.
  - discriminate.
  - apply (rp_dtype H).
  - rewrite (rp_data H). apply of_flat.
Qed.
Lemma ifft_sim k x t : crep 2 k x t -> sim st (crep 2 k) (np_ifft complex_ops x) (t_ifft t).
Proof.
  intros [H Hc]. unfold np_ifft, complex_check, is_complex. rewrite (rp_dt H). cbn [dt Nat.eqb negb raise_if bind].
  unfold t_ifft. rewrite (contig _ Hc), (check2 _ _ _ H), (rp_shape H), split_last_snoc. cbn [bind].
  eapply (fft_sim k Complex idft idft 2 x t); try reflexivity.
  - apply (rp_wf H).
  - apply (rp_rank H).
  - now right.
  - apply idft_len.
  - discriminate.
  - apply (rp_dtype H).
  - rewrite (rp_data H). apply of_flat.
Qed.
Lemma irfft_sim k x t : crep 2 k x t -> sim st (rep 1 k) (np_irfft complex_ops x) (t_irfft t).
Proof.
  intros [H Hc]. unfold np_irfft, complex_check, is_complex. rewrite (rp_dt H). cbn [dt Nat.eqb negb raise_if bind].
  unfold t_irfft. rewrite (contig _ Hc), (check2 _ _ _ H), (rp_shape H), split_last_snoc. cbn [bind].
  eapply sim_weaken; [|eapply (fft_sim k Real (fun r => map (o_re complex_ops) (idft r)) idft 1 x t) with (flag := false)]; try reflexivity.
  - intros y u [Hy _]. exact Hy.
  - apply (rp_wf H).
  - apply (rp_rank H).
  - now left.
  - intros r. rewrite map_length. apply idft_len.
  - intros _ r. apply Forall_map, Forall_forall. intros z _. reflexivity.
  - apply (rp_dtype H).
  - rewrite (rp_data H). apply of_flat.
  - intros r. rewrite flat_1, map_map. cbn [Nat.eqb]. apply map_ext. reflexivity.
Qed.

Lemma modulus_sim k x t : crep 2 k x t -> sim st (crep 1 k) (np_modulus complex_ops x) (t_modulus t).
Proof.
  intros [H Hc]. unfold np_modulus, t_modulus. rewrite (check2 _ _ _ H), (contig _ Hc), (rp_shape H), split_last_snoc. cbn [bind].
  rewrite (rp_dt H). cbn [dt Nat.eqb]. apply sim_ok. split; [|reflexivity].
  constructor; cbn [nd_shape nd_dtype nd_data t_dtype t_shape t_data].
  - unfold nd_wf. cbn. rewrite map_length. apply (rp_wf H).
  - apply (rp_rank H).
  - now left.
  - reflexivity.
  - intros _. apply Forall_map, Forall_forall. intros z _. reflexivity.
  - apply (rp_dtype H).
  - reflexivity.
  - rewrite (rp_data H), of_flat, flat_1, map_map. apply map_ext. intros z. cbn. unfold modulus_forward, Cmod. f_equal. ring.
Qed.

(** Filters: real arrays with one axis, represented by a tensor with a trailing axis of length one. *)
Definition frep (w : nd C) (t : tensor) : Prop := crep 1 1 w t.

Lemma cdgmm_sim k x t w u : crep 2 (S k) x t -> frep w u -> sim st (crep 2 (S k)) (np_cdgmm complex_ops x w) (t_cdgmm t u).
Proof.
  intros [H Hc] [Hw Hcw]. unfold np_cdgmm, is_complex, is_real. rewrite (rp_dt H), (rp_dt Hw). cbn [dt Nat.eqb negb andb].
  unfold t_cdgmm. rewrite (rp_shape Hw), split_last_snoc. cbn [bind Nat.eqb]. rewrite (contig _ Hcw). cbn [bind].
  rewrite (check2 _ _ _ H), (contig _ Hc), (rp_shape H), split_last_snoc. cbn [bind].
  destruct (rank_split _ _ (rp_rank Hw)) as (pw & nw & Ew & Hpw). destruct pw; [|discriminate]. cbn [app] in Ew.
  destruct (rank_split _ _ (rp_rank H)) as (pre & n & Ex & Hpre). rewrite Ew, Ex.
  cbn [length trailing]. rewrite app_length. cbn [length].
  replace (length pre + 1 + 1 - (1 + 1)) with (length pre) by lia. replace (length pre + 1 - 1) with (length pre) by lia.
  rewrite skipn_app, skipn_all, Nat.sub_diag. cbn [app skipn].
  destruct (list_eq_dec Nat.eq_dec [n] [nw]) as [En|_]; [|apply sim_err].
  rewrite (rp_dtype H), (rp_dtype Hw). replace (fdtype_eqb d d) with true by (destruct d; reflexivity). cbn [negb].
  rewrite firstn_app, firstn_all, Nat.sub_diag. cbn [firstn]. rewrite app_nil_r. injection En as En. subst nw.
  apply sim_ok. split; [|reflexivity].
  assert (Hlw : length (nd_data w) = n). { pose proof (rp_wf Hw) as G. unfold nd_wf in G. rewrite Ew in G. cbn in G. lia. }
  constructor; cbn [nd_shape nd_dtype nd_data t_dtype t_shape t_data].
  - pose proof (map_rows_wf Complex n (mul_row complex_ops (nd_data w)) pre n x (rp_wf H) Ex) as G.
    unfold map_rows, nd_wf in *. cbn [nd_shape nd_data] in *. replace (prod [n]) with n by (cbn; lia). apply G.
    intros r Hr. now rewrite mul_row_length by congruence.
  - rewrite app_length. cbn. lia.
  - now right.
  - reflexivity.
  - discriminate.
  - reflexivity.
  - reflexivity.
  - rewrite (rp_data H), (rp_data Hw), flat_1, flat_chunks, map_map, flat_concat, map_map by lia. f_equal. apply map_ext.
    intros r. apply mul_row_flat. now apply (rp_real Hw).
Qed.

Lemma subsample_sim k x t q : crep 2 (S k) x t -> sim st (crep 2 (S k)) (np_subsample complex_ops x q) (t_subsample t q).
Proof.
  intros [H Hc]. unfold np_subsample, t_subsample, complex_check, is_complex. rewrite (rp_dt H). cbn [dt Nat.eqb negb raise_if bind].
  rewrite (check2 _ _ _ H). cbn [bind]. destruct q as [q|]; [|apply sim_err].
  destruct (rank_split _ _ (rp_rank H)) as (pre & n & Ex & Hpre). rewrite (rp_shape H), Ex, split_pair_snoc, split_last_snoc. cbn [bind].
  destruct (Z.eqb_spec q 0) as [|Hq0]; [apply sim_err|]. destruct (Z.ltb_spec q 0) as [|Hq]; [apply sim_shape_err|].
  rewrite Hc. cbn [negb]. rewrite (prod_app1 (pre ++ [n]) 2).
  replace (prod (pre ++ [Z.to_nat q; n / Z.to_nat q; 2])) with (prod (pre ++ [Z.to_nat q; n / Z.to_nat q]) * 2).
  2:{ rewrite !prod_app. cbn [prod fold_right]. ring. }
  replace (Nat.eqb (prod (pre ++ [Z.to_nat q; n / Z.to_nat q]) * 2) (prod (pre ++ [n]) * 2))
    with (Nat.eqb (prod (pre ++ [Z.to_nat q; n / Z.to_nat q])) (prod (pre ++ [n]))).
  2:{ destruct (Nat.eqb_spec (prod (pre ++ [Z.to_nat q; n / Z.to_nat q])) (prod (pre ++ [n]))) as [->|Hn].
      - symmetry. apply Nat.eqb_refl.
      - symmetry. apply Nat.eqb_neq. lia. }
  destruct (Nat.eqb _ _); [|apply sim_shape_err]. apply sim_ok. split; [|reflexivity].
  constructor; cbn [map_rows nd_shape nd_dtype nd_data t_dtype t_shape t_data].
  - apply map_rows_wf; [apply (rp_wf H)|exact Ex|]. intros r _. apply periodize_row_length.
  - rewrite app_length. cbn. lia.
  - now right.
  - reflexivity.
  - discriminate.
  - apply (rp_dtype H).
  - now rewrite <- app_assoc.
  - rewrite (rp_data H), flat_chunks, map_map, flat_concat, map_map by lia. f_equal. apply map_ext.
    intros r. apply periodize_flat. lia.
Qed.

Lemma average_sim k x t : crep 1 (S k) x t ->
  sim st (fun y u => crep 1 (S k) y u /\ exists pre, nd_shape y = pre ++ [1]) (np_average_global complex_ops x) (t_average_global t).
Proof.
  intros [H Hc]. unfold np_average_global, t_average_global, real_check, is_real. rewrite (rp_dt H). cbn [dt Nat.eqb negb raise_if bind].
  rewrite (contig _ Hc), (check1 _ _ _ H). cbn [bind].
  destruct (rank_split _ _ (rp_rank H)) as (pre & n & Ex & Hpre). rewrite (rp_shape H), Ex, split_pair_snoc, split_last_snoc. cbn [bind].
  apply sim_ok. split; [|exists pre; reflexivity]. split; [|reflexivity].
  assert (Hr : reals (nd_data x)) by now apply (rp_real H).
  constructor; cbn [map_rows nd_shape nd_dtype nd_data t_dtype t_shape t_data].
  - apply map_rows_wf; [apply (rp_wf H)|exact Ex|]. reflexivity.
  - rewrite app_length. cbn. lia.
  - now left.
  - reflexivity.
  - intros _. apply reals_rows; [exact Hr|]. intros r Hr'. constructor; [|constructor]. rewrite snd_osum.
    clear -Hr'. induction Hr' as [|z r Hz Hr IH]; [reflexivity|]. unfold osum in *. cbn [map fold_right]. rewrite IH, Hz. cbn. ring.
  - apply (rp_dtype H).
  - now rewrite <- app_assoc.
  - rewrite (rp_data H), !flat_1, map_chunks, map_map, concat_map, map_map. f_equal. apply map_ext.
    intros r. cbn [map]. now rewrite fst_osum.
Qed.

Lemma nth_reals l i : reals l -> snd (nth i l (RtoC 0)) = 0%R.
Proof. intros H. revert i. induction H as [|z l Hz H IH]; intros [|i]; cbn; auto. Qed.

Lemma pad_sim k x t l r : plain (S k) x t -> k = 1 \/ k = 2 -> sim st (crep 1 (S k)) (np_pad complex_ops x l r) (t_pad t l r).
Proof.
  intros H Hk. unfold np_pad, t_pad. rewrite (pl_shape H).
  destruct (rank_split _ _ (pl_rank H)) as (pre & n & Ex & Hpre). rewrite Ex, split_last_snoc. cbn [bind].
  destruct (_ || _)%bool eqn:E1; [apply sim_err|]. destruct ((l <? 0) || (r <? 0))%Z eqn:E2; [apply sim_shape_err|].
  replace (Nat.eqb (length pre) 1 || Nat.eqb (length pre) 2) with true.
  2:{ rewrite Hpre. destruct Hk as [->| ->]; reflexivity. }
  cbn [negb]. apply sim_ok. split; [|reflexivity].
  constructor; cbn [map_rows nd_shape nd_dtype nd_data t_dtype t_shape t_data].
  - apply map_rows_wf; [apply (pl_wf H)|exact Ex|]. intros row _. apply pad_row_length.
  - rewrite app_length. cbn. lia.
  - now left.
  - apply (pl_dt H).
  - intros _. apply reals_rows; [apply (pl_real H)|]. intros row Hr. apply Forall_map, Forall_forall. intros p _. cbn [o_zero complex_ops]. now apply nth_reals.
  - apply (pl_dtype H).
  - now rewrite <- app_assoc.
  - rewrite (pl_data H), flat_1, map_chunks, map_map, concat_map, map_map. f_equal. apply map_ext.
    intros row. apply pad_reflect_fst.
Qed.

Lemma slice_In {A} a b (l : list A) x : In x (slice a b l) -> In x l.
Proof.
  intros H. unfold slice in H. rewrite <- (firstn_skipn a l). apply in_or_app. right.
  rewrite <- (firstn_skipn (b - a) (skipn a l)). apply in_or_app. now left.
Qed.

Lemma unpad_sim k x t a b : rep 1 (S k) x t -> sim st (plain (S k)) (np_unpad x a b) (t_unpad t a b).
Proof.
  intros H. unfold np_unpad, t_unpad. rewrite (rp_shape H), split_last_snoc. cbn [bind].
  rewrite prod_app1, Nat.mul_1_r, Nat.eqb_refl. cbn [negb].
  destruct (rank_split _ _ (rp_rank H)) as (pre & n & Ex & Hpre). rewrite Ex, split_last_snoc. cbn [bind].
  apply sim_ok. constructor; cbn [map_rows nd_shape nd_dtype nd_data t_dtype t_shape t_data].
  - apply map_rows_wf; [apply (rp_wf H)|exact Ex|]. intros row Hr. now rewrite slice_length, Hr.
  - rewrite app_length. cbn. lia.
  - rewrite (rp_dt H). reflexivity.
  - apply reals_rows; [now apply (rp_real H)|]. intros row Hr. apply reals_in. intros z Hz. apply (proj1 (reals_in _) Hr). now apply slice_In in Hz.
  - apply (rp_dtype H).
  - reflexivity.
  - rewrite (rp_data H), flat_1, map_chunks, map_map, concat_map, map_map. f_equal. apply map_ext.
    intros row. apply slice_map.
Qed.

Lemma reshape_input_sim k x t n : plain k x t -> sim st (plain 3) (np_reshape_input x [n]) (t_reshape_input t [n]).
Proof.
  intros H. unfold np_reshape_input, reshape_infer, t_reshape_input. rewrite (pl_shape H).
  destruct (Nat.eqb (prod [1; n]) 0) eqn:E0; [apply sim_shape_err|]. destruct (Nat.eqb (_ mod _) 0) eqn:E1; [|apply sim_shape_err].
  apply sim_ok. apply Nat.eqb_eq in E1. apply Nat.eqb_neq in E0.
  constructor; cbn [nd_shape nd_dtype nd_data t_dtype t_shape t_data]; try apply H; try reflexivity.
  pose proof (pl_wf H) as G. unfold nd_wf in *. cbn [nd_shape nd_data].
  change (prod (prod (nd_shape x) / prod [1; n] :: [1; n])) with (prod (nd_shape x) / prod [1; n] * prod [1; n]).
  rewrite G. pose proof (Nat.div_mod (prod (nd_shape x)) (prod [1; n]) E0). lia.
Qed.

Lemma reshape_output_plain k x t batch n : plain k x t ->
  sim st (plain (length (batch ++ trailing n (nd_shape x)))) (np_reshape_output x batch n) (t_reshape_output t batch n).
Proof.
  intros H. unfold np_reshape_output, reshape, t_reshape_output. rewrite (pl_shape H).
  destruct (Nat.eqb _ _) eqn:E; [|apply sim_shape_err]. apply sim_ok. apply Nat.eqb_eq in E.
  constructor; cbn [nd_shape nd_dtype nd_data t_dtype t_shape t_data]; try apply H; try reflexivity.
  pose proof (pl_wf H) as G. unfold nd_wf in *. cbn [nd_shape nd_data]. congruence.
Qed.
(** After global averaging the trailing axis takes the place of the time axis. *)
Lemma reshape_output_global k x t batch pre : rep 1 k x t -> nd_shape x = pre ++ [1] ->
  sim st (plain (length batch + 1)) (np_reshape_output x batch 1) (t_reshape_output t batch 1).
Proof.
  intros H Ex. unfold np_reshape_output, reshape, t_reshape_output. rewrite (rp_shape H), Ex, !trailing_1.
  rewrite (prod_app1 (pre ++ [1])), Nat.mul_1_r.
  destruct (Nat.eqb _ _) eqn:E; [|apply sim_shape_err]. apply sim_ok. apply Nat.eqb_eq in E.
  constructor; cbn [nd_shape nd_dtype nd_data t_dtype t_shape t_data].
  - pose proof (rp_wf H) as G. unfold nd_wf in *. cbn [nd_shape nd_data]. congruence.
  - rewrite app_length. reflexivity.
  - rewrite (rp_dt H). reflexivity.
  - now apply (rp_real H).
  - apply (rp_dtype H).
  - reflexivity.
  - now rewrite (rp_data H), flat_1.
Qed.
End Sim.
