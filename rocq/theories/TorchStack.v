(** Simulation of stacking and of the operations on the frequency axis. *)
From Coq Require Import Reals ZArith List Bool Arith Lia Lra.
From Coquelicot Require Import Complex.
From Verif Require Import Base BaseProofs NdArray Backend ComplexOps NdProofs StackProofs Construct1d Torch1d TorchRel TorchSim.
Import ListNotations.
Local Open Scope nat_scope.
Local Open Scope res_scope.

Lemma reals_firstn n l : reals l -> reals (firstn n l).
Proof. intros H. apply reals_in. intros z Hz. apply (proj1 (reals_in _) H). rewrite <- (firstn_skipn n l). apply in_or_app. now left. Qed.
Lemma reals_skipn n l : reals l -> reals (skipn n l).
Proof. intros H. apply reals_in. intros z Hz. apply (proj1 (reals_in _) H). rewrite <- (firstn_skipn n l). apply in_or_app. now right. Qed.

Section Sim.
Variable (d : fdtype) (st : bool).
Notation rep := (rep d). Notation crep := (crep d). Notation plain := (plain d).

(** [suf] is the trailing axis if there is one. *)
Record grep (c : nat) (suf : list nat) (k : nat) (x : nd C) (t : tensor) : Prop := {
  g_wf : nd_wf x; g_rank : length (nd_shape x) = k; g_c : c = 1 \/ c = 2; g_dt : nd_dtype x = dt c;
  g_real : c = 1 -> reals (nd_data x); g_dtype : t_dtype t = d;
  g_shape : t_shape t = nd_shape x ++ suf; g_data : t_data t = flat c (nd_data x)
}.
Lemma rep_grep c k x t : rep c k x t <-> grep c [c] k x t.
Proof. split; intros []; constructor; assumption. Qed.
Lemma plain_grep k x t : plain k x t <-> grep 1 [] k x t.
Proof.
  split; intros []; constructor; rewrite ?app_nil_r, ?flat_1 in *; auto.
Qed.

Lemma stack_gen c suf k dim p l l' : prod suf = c -> c = 1 \/ c = 2 -> Forall2 (grep c suf k) l l' ->
  (if dim <? 0 then dim + Z.of_nat k + 1 else dim)%Z = Z.of_nat p ->
  (if dim <? 0 then dim + Z.of_nat (k + length suf) + 1 else dim)%Z = Z.of_nat p -> p <= k ->
  sim st (fun y u => grep c suf (S k) y u /\ t_contig u = true) (stack l dim) (t_stack l' dim).
Proof.
  intros Hsuf Hc H Hp Hp' Hk. destruct H as [|x t l l' Hx H]; [apply sim_shape_err|].
  unfold stack, t_stack. rewrite (g_rank _ _ _ _ _ Hx), (g_shape _ _ _ _ _ Hx), app_length, (g_rank _ _ _ _ _ Hx), Hp, Hp'.
  destruct (Z.ltb_spec (Z.of_nat p) 0); [lia|]. cbn [orb].
  destruct (Z.ltb_spec (Z.of_nat (k + length suf)) (Z.of_nat p)); [lia|]. rewrite !Nat2Z.id.
  unfold stack_at. rewrite (g_rank _ _ _ _ _ Hx). destruct (Nat.ltb_spec k p); [lia|].
  assert (HF : Forall2 (grep c suf k) (x :: l) (t :: l')) by now constructor.
  set (L := x :: l) in *. set (L' := t :: l') in *.
  assert (Efb : forallb (fun y => if list_eq_dec Nat.eq_dec (t_shape y) (nd_shape x ++ suf) then true else false) L' =
                forallb (fun y => if list_eq_dec Nat.eq_dec (nd_shape y) (nd_shape x) then true else false) L).
  { clearbody L L'. clear -HF. induction HF as [|y u L L' Hy HF IH]; [reflexivity|]. cbn [forallb]. rewrite IH. f_equal.
    rewrite (g_shape _ _ _ _ _ Hy). destruct (list_eq_dec Nat.eq_dec (nd_shape y) (nd_shape x)) as [->|Hn].
    - destruct (list_eq_dec _ _ _); [reflexivity|contradiction].
    - destruct (list_eq_dec _ _ _) as [E|]; [|reflexivity]. apply app_inv_tail in E. contradiction. }
  rewrite Efb. destruct (forallb _ L) eqn:Ea; [|apply sim_shape_err].
  assert (Hsh : forall y, In y L -> nd_wf y /\ nd_shape y = firstn p (nd_shape x) ++ skipn p (nd_shape x)).
  { intros y Hy. rewrite firstn_skipn. rewrite forallb_forall in Ea. specialize (Ea y Hy).
    destruct (Forall2_In_l _ _ _ _ HF Hy) as (u & _ & Hu). split; [apply Hu|]. destruct (list_eq_dec _ _ _); [assumption|discriminate]. }
  apply sim_ok. split; [|reflexivity].
  destruct (stack_at_blocks L (firstn p (nd_shape x)) (skipn p (nd_shape x)) ltac:(discriminate) Hsh) as (y & Ey & Wy & _).
  assert (Epl : length (firstn p (nd_shape x)) = p) by (rewrite firstn_length, (g_rank _ _ _ _ _ Hx); lia).
  rewrite Epl in Ey. unfold stack_at in Ey. unfold L at 1 in Ey. rewrite (g_rank _ _ _ _ _ Hx), Ea in Ey.
  destruct (Nat.ltb_spec k p); [lia|]. 
  lazymatch type of Ey with Ok ?z = Ok _ => assert (Ey2 : z = y) by congruence end. clear Ey. rename Ey2 into Ey.
  assert (Ef : firstn p (nd_shape x ++ suf) = firstn p (nd_shape x)).
  { rewrite firstn_app, (g_rank _ _ _ _ _ Hx). replace (p - k) with 0 by lia. cbn. now rewrite app_nil_r. }
  assert (Es : skipn p (nd_shape x ++ suf) = skipn p (nd_shape x) ++ suf).
  { rewrite skipn_app, (g_rank _ _ _ _ _ Hx). now replace (p - k) with 0 by lia. }
  rewrite Ef, Es. rewrite Ey.
  constructor; cbn [t_dtype t_shape t_data].
  - exact Wy.
  - rewrite <- Ey. cbn [nd_shape]. rewrite app_length, Epl. cbn [length]. rewrite skipn_length, (g_rank _ _ _ _ _ Hx). lia.
  - exact Hc.
  - rewrite <- Ey. cbn [nd_dtype]. apply Hx.
  - intros Hc1. rewrite <- Ey. cbn [nd_data]. apply Forall_concat, Forall_map, Forall_forall. intros i _.
    apply Forall_concat, Forall_map, Forall_forall. intros z Hz. destruct (Forall2_In_l _ _ _ _ HF Hz) as (u & _ & Hu).
    apply reals_firstn, reals_skipn. now apply (g_real _ _ _ _ _ Hu).
  - apply Hx.
  - rewrite <- Ey. cbn [nd_shape]. rewrite <- (Forall2_len _ _ _ HF). now rewrite <- app_assoc.
  - rewrite <- Ey. cbn [nd_data]. rewrite flat_concat, map_map. f_equal. apply map_ext. intros i.
    rewrite flat_concat, map_map. f_equal. rewrite prod_app, Hsuf.
    assert (Hc2 : c <= 2) by (destruct Hc; lia). clearbody L L'. clear -HF Hc2.
    induction HF as [|y u L L' Hy HF IH]; [reflexivity|]. cbn [map]. rewrite IH. f_equal. rewrite (g_data _ _ _ _ _ Hy).
    rewrite Nat.mul_assoc, flat_skipn, flat_firstn by exact Hc2. reflexivity.
Qed.

Lemma stack_plain k dim l l' p : Forall2 (plain k) l l' -> (dim + Z.of_nat k + 1 = Z.of_nat p)%Z -> (dim < 0)%Z ->
  sim st (plain (S k)) (stack l dim) (t_stack l' dim).
Proof.
  intros H Hp Hd. eapply sim_weaken; [|apply (stack_gen 1 [] k dim p)]; try reflexivity.
  - intros y u [Hy _]. now apply plain_grep.
  - now left.
  - eapply Forall2_impl_in; [|exact H]. intros y u _ _ Hy. now apply plain_grep.
  - destruct (Z.ltb_spec dim 0); lia.
  - cbn [length]. destruct (Z.ltb_spec dim 0); lia.
  - lia.
Qed.
Lemma stack_rep c k dim l l' : Forall2 (rep c k) l l' -> c = 1 \/ c = 2 -> (0 <= dim <= Z.of_nat k)%Z ->
  sim st (crep c (S k)) (stack l dim) (t_stack l' dim).
Proof.
  intros H Hc Hd. eapply sim_weaken; [|apply (stack_gen c [c] k dim (Z.to_nat dim))].
  - intros y u [Hy Hcy]. split; [now apply rep_grep|exact Hcy].
  - cbn. lia.
  - exact Hc.
  - eapply Forall2_impl_in; [|exact H]. intros y u _ _ Hy. now apply rep_grep.
  - destruct (Z.ltb_spec dim 0); lia.
  - destruct (Z.ltb_spec dim 0); lia.
  - lia.
Qed.

Lemma c_le c : c = 1 \/ c = 2 -> c <= 2.
Proof. lia. Qed.

Lemma transpose_len a b l : length (transpose_block complex_ops a b l) = a * b.
Proof.
  unfold transpose_block. rewrite (concat_len a), map_length, seq_length; [lia|]. apply Forall_map, Forall_forall. intros j _.
  now rewrite map_length, seq_length.
Qed.

Lemma swap_sim c k x t : rep c (S (S k)) x t -> sim st (crep c (S (S k))) (np_swap complex_ops x) (t_swap t).
Proof.
  intros H. unfold np_swap, t_swap. destruct (rank_split2 _ _ (rp_rank H)) as (pre & m & n & Ex & Hpre).
  rewrite (rp_shape H), Ex, split_last3_snoc, split_last2_snoc. cbn [bind].
  pose proof (c_le _ (rp_c H)) as Hc. pose proof (rp_wf H) as Hw. unfold nd_wf in Hw. rewrite Ex, prod_app in Hw.
  assert (Hp : prod [m; n] = m * n) by (cbn; lia). rewrite Hp in Hw. destruct (chunks_ok (prod pre) (m * n) (nd_data x) Hw) as (L & F & _).
  apply sim_ok. split; [|reflexivity]. constructor; cbn [nd_shape nd_dtype nd_data t_dtype t_shape t_data].
  - unfold nd_wf. cbn [nd_shape nd_data]. rewrite (concat_len (n * m)), map_length, L, prod_app.
    + f_equal. cbn. lia.
    + apply Forall_map. eapply Forall_impl; [|exact F]. intros r _. rewrite transpose_len. lia.
  - rewrite app_length. cbn. lia.
  - apply (rp_c H).
  - apply (rp_dt H).
  - intros Hc1. apply reals_rows; [now apply (rp_real H)|]. intros r Hr. unfold transpose_block.
    apply Forall_concat, Forall_map, Forall_forall. intros j _. apply Forall_map, Forall_forall. intros i _. cbn [o_zero complex_ops]. now apply nth_reals.
  - apply (rp_dtype H).
  - now rewrite <- app_assoc.
  - rewrite (rp_data H), flat_chunks, map_map, flat_concat, map_map by exact Hc. f_equal. apply map_ext_in.
    intros r Hr. apply transpose_flat; [exact Hc|]. rewrite Forall_forall in F. now apply F.
Qed.

Lemma pad_frequency_sim c k x t q : rep c (S k) x t -> (st = true -> (0 <= q)%Z) -> sim st (crep c (S k)) (np_pad_frequency complex_ops x q) (t_pad_frequency t q).
Proof.
  intros H Hq. unfold np_pad_frequency, t_pad_frequency. destruct (rank_split _ _ (rp_rank H)) as (pre & n & Ex & Hpre).
  rewrite (rp_shape H), Ex, split_pair_snoc, split_last_snoc. cbn [bind].
  destruct (Z.ltb_spec q 0) as [L0|L0]; [intros Hst; specialize (Hq Hst); lia|]. destruct (Z.ltb_spec (Z.of_nat n + q) 0); [lia|].
  replace (Z.to_nat (Z.of_nat n + q)) with (n + Z.to_nat q) by lia. set (r := Z.to_nat q).
  pose proof (c_le _ (rp_c H)) as Hc. pose proof (rp_wf H) as Hw. unfold nd_wf in Hw. rewrite Ex, prod_snoc in Hw.
  destruct (chunks_ok (prod pre) n (nd_data x) Hw) as (L & F & _).
  apply sim_ok. split; [|reflexivity]. constructor; cbn [map_rows nd_shape nd_dtype nd_data t_dtype t_shape t_data].
  - apply map_rows_wf; [apply (rp_wf H)|exact Ex|]. intros row Hr. unfold pad_zero_row. rewrite app_length, repeat_length. lia.
  - rewrite app_length. cbn. lia.
  - apply (rp_c H).
  - apply (rp_dt H).
  - intros Hc1. apply reals_rows; [now apply (rp_real H)|]. intros row Hr. apply Forall_app. split; [exact Hr|].
    apply Forall_forall. intros z Hz. apply repeat_spec in Hz. subst z. reflexivity.
  - apply (rp_dtype H).
  - now rewrite <- app_assoc.
  - rewrite (rp_data H), flat_chunks, map_map, flat_concat, map_map by exact Hc. f_equal. apply map_ext_in. intros row Hrow.
    rewrite pad_zero_flat, flat_firstn by exact Hc. f_equal. apply firstn_all2. unfold pad_zero_row. rewrite app_length, repeat_length.
    rewrite Forall_forall in F. rewrite (F row Hrow). lia.
Qed.

Lemma unpad_frequency_sim c x t a s : rep c 4 x t -> sim st (rep c 4) (np_unpad_frequency x a s) (t_unpad_frequency t a s).
Proof.
  intros H. unfold np_unpad_frequency, t_unpad_frequency. destruct s as [s|]; [|apply sim_err]. destruct (s =? 0)%Z; [apply sim_err|].
  destruct (nd_shape x) as [|b1 [|b2 [|m [|n [|]]]]] eqn:Ex; pose proof (rp_rank H) as Hk; rewrite Ex in Hk; try discriminate.
  change [b1; b2; m; n] with ([b1; b2] ++ [m; n]). rewrite split_last2_snoc. cbn [bind]. rewrite (rp_shape H), Ex. cbn [app].
  set (u := Z.to_nat (1 + a / s)). pose proof (c_le _ (rp_c H)) as Hc. pose proof (rp_wf H) as Hw. unfold nd_wf in Hw. rewrite Ex in Hw.
  assert (Hp : prod [b1; b2] = b1 * b2) by (cbn; lia). rewrite Hp.
  destruct (chunks_ok (b1 * b2) (m * n) (nd_data x)) as (L & F & _). { rewrite Hw. cbn. lia. }
  apply sim_ok. constructor; cbn [nd_shape nd_dtype nd_data t_dtype t_shape t_data].
  - unfold nd_wf. cbn [nd_shape nd_data]. rewrite (concat_len (Nat.min u m * n)), map_length, L.
    + cbn. lia.
    + apply Forall_map. eapply Forall_impl; [|exact F]. intros r Hr. rewrite firstn_length, Hr. nia.
  - reflexivity.
  - apply (rp_c H).
  - apply (rp_dt H).
  - intros Hc1. apply reals_rows; [now apply (rp_real H)|]. intros r Hr. now apply reals_firstn.
  - apply (rp_dtype H).
  - reflexivity.
  - replace (prod [n; c]) with (n * c) by (cbn; lia). rewrite !Nat.mul_assoc, (rp_data H), flat_chunks, map_map, flat_concat, map_map by exact Hc.
    f_equal. apply map_ext. intros r. now apply flat_firstn.
Qed.

Lemma split_frequency_sim c k x t : rep c (S (S k)) x t -> (st = true -> exists pre m n, nd_shape x = pre ++ [m; n] /\ m <> 0) ->
  sim st (Forall2 (fun y u => rep c (S (S k)) y u /\ exists pre n, nd_shape y = pre ++ [1; n] /\ exists pre' m, nd_shape x = pre' ++ [m; n]))
    (np_split_frequency x) (t_split_frequency t).
Proof.
  intros H Hm0. unfold np_split_frequency, t_split_frequency. destruct (rank_split2 _ _ (rp_rank H)) as (pre & m & n & Ex & Hpre).
  rewrite (rp_shape H), Ex, split_last3_snoc, split_last2_snoc. cbn [bind]. destruct (Nat.eqb_spec m 0) as [Em|Hm].
  { intros Hst. exfalso. destruct (Hm0 Hst) as (pre' & m' & n' & E & Hm'). rewrite Ex in E. change [m; n] with ([m] ++ [n]) in E. change [m'; n'] with ([m'] ++ [n']) in E.
    rewrite !app_assoc in E. apply app_inj_tail in E as [E _]. apply app_inj_tail in E as [_ E]. congruence. }
  pose proof (c_le _ (rp_c H)) as Hc. pose proof (rp_wf H) as Hw. unfold nd_wf in Hw. rewrite Ex, prod_app in Hw.
  assert (Hp : prod [m; n] = m * n) by (cbn; lia). rewrite Hp in Hw. destruct (chunks_ok (prod pre) (m * n) (nd_data x) Hw) as (L & F & _).
  apply sim_ok.
  assert (G : forall l, (forall i, In i l -> i < m) -> Forall2 (fun y u => rep c (S (S k)) y u /\ exists pre0 n0, nd_shape y = pre0 ++ [1; n0] /\ exists pre' m', pre ++ [m; n] = pre' ++ [m'; n0])
     (map (fun i => mk_nd (nd_dtype x) (pre ++ [1; n])
          (concat (map (fun blk => firstn n (skipn (i * n) blk)) (chunks (prod pre) (m * n) (nd_data x))))) l)
     (map (fun i => mk_t (t_dtype t) (pre ++ [1; n; c])
          (concat (map (fun blk => firstn (n * c) (skipn (i * (n * c)) blk))
                       (chunks (prod pre) (m * n * c) (t_data t)))) false) l)).
  2:{ apply G. intros i Hi. apply in_seq in Hi. lia. }
  intros l. induction l as [|i l IH]; intros Hl; cbn [map]; [constructor|]. constructor; [|apply IH; intros; apply Hl; now right].
  specialize (Hl i (or_introl eq_refl)). split; [|exists pre, n; split; [reflexivity|]; exists pre, m; reflexivity].
  constructor; cbn [nd_shape nd_dtype nd_data t_dtype t_shape t_data].
  - unfold nd_wf. cbn [nd_shape nd_data]. rewrite (concat_len n), map_length, L, prod_app.
    + f_equal. cbn. lia.
    + apply Forall_map. eapply Forall_impl; [|exact F]. intros r Hr. rewrite firstn_length, skipn_length, Hr. nia.
  - rewrite app_length. cbn. lia.
  - apply (rp_c H).
  - apply (rp_dt H).
  - intros Hc1. apply reals_rows; [now apply (rp_real H)|]. intros r Hr. now apply reals_firstn, reals_skipn.
  - apply (rp_dtype H).
  - now rewrite <- app_assoc.
  - rewrite (rp_data H), flat_chunks, map_map, flat_concat, map_map by exact Hc. f_equal. apply map_ext. intros r.
    now rewrite Nat.mul_assoc, flat_skipn, flat_firstn by exact Hc.
Qed.
End Sim.
