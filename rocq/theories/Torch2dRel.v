(** Every operation of the 2-D torch backend simulates the NumPy one, on the sizes met by the transform. *)
From Coq Require Import String Reals ZArith List Bool Arith Lia Lra.
From Coquelicot Require Import Complex.
From Verif Require Import Base BaseProofs NdArray Backend ComplexOps NdProofs Construct1d Rows1d StackProofs Backend2d Core2d FilterBank2d Frontend2d Images Rows2d Pad2d Eval2d
  Torch1d TorchRel TorchSim TorchStack TorchModule TorchModuleProofs TorchFront Conv1d Dft Cuda CudaProofs CudaProofs2 PropShapes2d Torch2d.
Import ListNotations.
Local Open Scope nat_scope.
Local Open Scope res_scope.

(** ** Images *)
Lemma seq_mul (g : nat -> nat) M N : map g (seq 0 (M * N)) = concat (map (fun u => map (fun v => g (u * N + v)) (seq 0 N)) (seq 0 M)).
Proof.
  induction M as [|M IH]; [reflexivity|]. rewrite seq_S, map_app, concat_app, <- IH. replace (S M * N) with (M * N + N) by lia. rewrite seq_app, map_app. f_equal.
  cbn [map concat plus]. rewrite app_nil_r. clear.
  revert g. generalize (M * N). intros a g. replace (seq a N) with (map (fun v => a + v) (seq 0 N)); [now rewrite map_map|].
  clear. induction N as [|N IH]; [reflexivity|]. rewrite !seq_S, map_app, IH. reflexivity.
Qed.

Lemma img_rows {K} M N (f : nat -> nat -> K) : img M N f = concat (map (fun u => map (f u) (seq 0 N)) (seq 0 M)).
Proof.
  unfold img. transitivity (map (fun p => f (p / N) (p mod N)) (map (fun p => p) (seq 0 (M * N)))); [now rewrite map_id|].
  rewrite (seq_mul (fun p => p)), concat_map, map_map. f_equal. apply map_ext. intros u.
  rewrite map_map. apply map_ext_in. intros v Hv. apply in_seq in Hv. now rewrite pos_div, pos_mod by lia.
Qed.
Lemma map_img {K K'} (h : K -> K') M N f : map h (img M N f) = img M N (fun u v => h (f u v)).
Proof. unfold img. now rewrite map_map. Qed.
Lemma iat_fst N im u v : iat 0%R N (map fst im) u v = fst (iat (RtoC 0) N im u v).
Proof. unfold iat. change 0%R with (fst (RtoC 0)). apply map_nth. Qed.
Lemma reals_img M N f : (forall u v, snd (f u v : C) = 0%R) -> reals (img M N f).
Proof. intros H. unfold img. apply Forall_map, Forall_forall. intros p _. apply H. Qed.
Lemma iat_real N im u v : reals im -> snd (iat (RtoC 0) N im u v) = 0%R.
Proof. intros H. unfold iat. now apply nth_reals. Qed.
Lemma sep2_length' f M N im : (forall r, length (f r) = length r) -> length im = M * N -> length (sep2 complex_ops f M N im) = M * N.
Proof. intros Hf H. now apply sep2_length. Qed.
Lemma nth_firstn_lt {A} k (l : list A) z i : i < k -> nth i (firstn k l) z = nth i l z.
Proof. revert l i. induction k as [|k IH]; intros l i H; [lia|]. destruct l as [|a l], i as [|i]; cbn; try reflexivity. apply IH. lia. Qed.
Lemma nth_skipn_at {A} k (l : list A) z i : nth i (skipn k l) z = nth (k + i) l z.
Proof. revert l. induction k as [|k IH]; intros [|a l]; cbn; try reflexivity; [destruct i; reflexivity|apply IH]. Qed.
(** Rows cut out of an image. *)
Lemma crop_img h w (im : list C) : length im = h * w ->
  concat (map (fun u => firstn (w - 2) (skipn ((u + 1) * w + 1) im)) (seq 0 (h - 2))) = img (h - 2) (w - 2) (fun u v => iat (RtoC 0) w im (u + 1) (v + 1)).
Proof.
  intros Hl. rewrite img_rows. f_equal. apply map_ext_in. intros u Hu. apply in_seq in Hu.
  assert (Hb : (u + 1) * w + 1 + (w - 2) <= length im \/ w <= 1) by nia. destruct Hb as [Hb|Hb].
  2:{ replace (w - 2) with 0 by lia. reflexivity. }
  unfold iat. apply nth_ext with (d := RtoC 0) (d' := RtoC 0).
  - rewrite firstn_length, skipn_length, map_length, seq_length. lia.
  - rewrite firstn_length, skipn_length. intros v Hv. rewrite nth_firstn_lt by lia. rewrite nth_skipn_at. rewrite (nth_map_any _ _ _ _ 0) by (rewrite seq_length; lia).
    rewrite seq_nth by lia. f_equal. lia.
Qed.

Section Sim.
Variable (d : fdtype) (st : bool).
Notation rep := (rep d). Notation crep := (crep d). Notation plain := (plain d).

(** A batch of [B] images of [m x n] pixels. *)
Definition R3 (c B m n : nat) (x : nd C) (t : tensor) : Prop := crep c 3 x t /\ nd_shape x = [B; m; n].
Lemma R3_imgs c B m n x t : R3 c B m n x t -> exists ims, x = of_imgs (dt c) [B] m n ims /\ imgs_ok [B] m n ims /\
  (c = 1 \/ c = 2) /\ (c = 1 -> reals (concat ims)) /\ t = mk_t d ([B; m; n] ++ [c]) (flat c (concat ims)) true.
Proof.
  intros [[H Hc] Hs]. destruct (of_imgs_intro x [B] m n (rp_wf H) Hs) as (ims & E & Hi). rewrite (rp_dt H) in E. exists ims. split; [exact E|]. split; [exact Hi|].
  split; [apply (rp_c H)|]. split; [intros ->; pose proof (rp_real H eq_refl) as G; rewrite E in G; exact G|].
  pose proof (rp_data H) as D. pose proof (rp_shape H) as S. rewrite Hs in S. rewrite E in D. cbn [of_imgs nd_data] in D. pose proof (rp_dtype H) as T.
  destruct t as [td ts tl tc]. cbn in *. congruence.
Qed.
Lemma R3_intro c B m n ims flag : c = 1 \/ c = 2 -> (c = 1 -> reals (concat ims)) -> imgs_ok [B] m n ims ->
  rep c 3 (of_imgs (dt c) [B] m n ims) (mk_t d ([B; m; n] ++ [c]) (flat c (concat ims)) flag).
Proof. intros Hc Hr Hi. constructor; try reflexivity; try assumption. now apply of_imgs_wf. Qed.

Lemma fft2_imgs f B m n ims : 0 < m -> 0 < n -> imgs_ok [B] m n ims ->
  t2_fft_imgs f [B; m; n] (concat ims) = Ok (concat (map (sep2 complex_ops f m n) ims)).
Proof.
  intros Hm Hn Hi. unfold t2_fft_imgs. rewrite (split_last2_app [B] m n : split_last2 [B; m; n] = _). cbn [bind].
  destruct (Nat.eqb_spec m 0); [lia|]. destruct (Nat.eqb_spec n 0); [lia|]. cbn [orb]. now rewrite imgs_chunks.
Qed.
Lemma sep2_ok f B m n ims : (forall r, length (f r) = length r) -> imgs_ok [B] m n ims -> imgs_ok [B] m n (map (sep2 complex_ops f m n) ims).
Proof. intros Hf. apply imgs_ok_map. intros im H. now apply sep2_length'. Qed.

Lemma rfft2_sim B m n x t : 0 < m -> 0 < n -> R3 1 B m n x t -> sim st (R3 2 B m n) (np2_rfft complex_ops x) (t2_rfft t).
Proof.
  intros Hm Hn H. destruct (R3_imgs _ _ _ _ _ _ H) as (ims & -> & Hi & _ & Hr & ->). cbn [dt Nat.eqb]. rewrite (np2_rfft_of complex_ops [B] m n ims Hi Hm Hn).
  unfold t2_rfft, t_contiguous_check, t_real_check. cbn [t_contig t_shape t_data t_dtype negb raise_if bind]. rewrite split_last_snoc. cbn [bind Nat.eqb negb raise_if].
  rewrite flat_1, of_pairs_real by now apply Hr. rewrite fft2_imgs by assumption. cbn [bind]. apply sim_ok.
  split; [split; [|reflexivity]|reflexivity]. apply (R3_intro 2); [now right|discriminate|]. now apply sep2_ok, Hi; apply dft_len.
Qed.
Lemma ifft2_sim B m n x t : 0 < m -> 0 < n -> R3 2 B m n x t -> sim st (R3 2 B m n) (np2_ifft complex_ops x) (t2_ifft t).
Proof.
  intros Hm Hn H. destruct (R3_imgs _ _ _ _ _ _ H) as (ims & -> & Hi & _ & _ & ->). cbn [dt Nat.eqb]. rewrite (np2_ifft_of complex_ops [B] m n ims Hi Hm Hn).
  unfold t2_ifft, t_contiguous_check, t_complex_check. cbn [t_contig t_shape t_data t_dtype negb raise_if bind]. rewrite split_last_snoc. cbn [bind Nat.eqb negb raise_if].
  rewrite of_flat. rewrite fft2_imgs by assumption. cbn [bind]. apply sim_ok.
  split; [split; [|reflexivity]|reflexivity]. apply (R3_intro 2); [now right|discriminate|]. apply sep2_ok, Hi. apply idft_len.
Qed.
Lemma irfft2_sim B m n x t : 0 < m -> 0 < n -> R3 2 B m n x t ->
  sim st (fun y u => rep 1 3 y u /\ nd_shape y = [B; m; n]) (np2_irfft complex_ops x) (t2_irfft t).
Proof.
  intros Hm Hn H. destruct (R3_imgs _ _ _ _ _ _ H) as (ims & -> & Hi & _ & _ & ->). cbn [dt Nat.eqb]. rewrite (np2_irfft_of complex_ops [B] m n ims Hi Hm Hn).
  unfold t2_irfft, t_contiguous_check, t_complex_check. cbn [t_contig t_shape t_data t_dtype negb raise_if bind]. rewrite split_last_snoc. cbn [bind Nat.eqb negb raise_if].
  rewrite of_flat. rewrite fft2_imgs by assumption. cbn [bind]. apply sim_ok. split; [|reflexivity].
  assert (E : map fst (concat (map (sep2 complex_ops idft m n) ims)) = flat 1 (concat (map (fun im => map (o_re complex_ops) (sep2 complex_ops idft m n im)) ims))).
  { rewrite flat_1, !concat_map, !map_map. f_equal. apply map_ext. intros im. rewrite map_map. apply map_ext. reflexivity. }
  rewrite E. apply (R3_intro 1); [now left| |].
  - intros _. apply Forall_concat, Forall_map, Forall_forall. intros im _. apply Forall_map, Forall_forall. reflexivity.
  - apply (imgs_ok_map _ m n); [|exact Hi]. intros im Him. rewrite map_length. now apply sep2_length'; [apply idft_len|].
Qed.
Lemma modulus2_sim B m n x t : R3 2 B m n x t -> sim st (R3 1 B m n) (np_modulus complex_ops x) (t_modulus t).
Proof.
  intros [H Hs]. pose proof (modulus_sim d st 3 x t H) as G. unfold np_modulus in *. rewrite (rp_dt (proj1 H)) in *. cbn [dt Nat.eqb sim] in *.
  destruct G as (y & E & Hy). exists y. split; [exact E|]. split; [exact Hy|exact Hs].
Qed.
Lemma cdgmm2_sim B m n x t w u : R3 2 B m n x t -> crep 1 2 w u -> sim st (R3 2 B m n) (np_cdgmm complex_ops x w) (t_cdgmm t u).
Proof.
  intros H [Hw Hcw]. destruct (R3_imgs _ _ _ _ _ _ H) as (ims & -> & Hi & _ & _ & ->). unfold np_cdgmm, is_complex, is_real. rewrite (rp_dt Hw). cbn [dt Nat.eqb negb andb of_imgs nd_dtype nd_shape nd_data].
  unfold t_cdgmm. rewrite (rp_shape Hw), split_last_snoc. cbn [bind Nat.eqb]. rewrite (contig _ Hcw). cbn [bind t_shape t_data t_dtype t_contig].
  unfold t_complex_check, t_contiguous_check. cbn [t_shape t_contig negb raise_if]. rewrite split_last_snoc. cbn [bind Nat.eqb negb raise_if].
  destruct (rank_split2 _ _ (rp_rank Hw)) as (pw & mw & nw & Ew & Hpw). destruct pw; [|discriminate]. cbn [app] in Ew. rewrite Ew.
  cbn [length app trailing skipn Nat.sub Nat.add firstn].
  destruct (list_eq_dec Nat.eq_dec [m; n] [mw; nw]) as [En|_]; [|apply sim_err].
  rewrite (rp_dtype Hw). replace (fdtype_eqb d d) with true by (destruct d; reflexivity). cbn [negb]. injection En as <- <-.
  replace (prod [m; n]) with (m * n) by (cbn; lia). rewrite (flat_chunks 2) by lia. pose proof (imgs_chunks [B] m n ims Hi) as Hc. rewrite Hc. apply sim_ok.
  split; [split; [|reflexivity]|reflexivity].
  assert (E : concat (map (cdgmm_real_row (t_data u)) (map (flat 2) ims)) = flat 2 (concat (map (mul_row complex_ops (nd_data w)) ims))).
  { rewrite flat_concat, !map_map. f_equal. apply map_ext. intros im. rewrite (rp_data Hw), flat_1. apply mul_row_flat. now apply (rp_real Hw). }
  rewrite E. apply (R3_intro 2); [now right|discriminate|]. apply (imgs_ok_map _ m n); [|exact Hi]. intros im Him.
  assert (Hlw : length (nd_data w) = m * n). { pose proof (rp_wf Hw) as G. unfold nd_wf in G. rewrite Ew in G. cbn in G. lia. }
  rewrite mul_row_length; congruence.
Qed.

Lemma fold_mean2 k h w im : 0 < k -> 0 < h -> 0 < w -> map (fun p => mean2 h w k im p) (seq 0 (h * w)) = fold_img complex_ops (k * h) (k * w) k im.
Proof.
  intros Hk Hh Hw. unfold fold_img. rewrite !(Nat.mul_comm k), !Nat.div_mul by lia. unfold img. apply map_ext_in. intros p Hp. apply in_seq in Hp. unfold mean2.
  rewrite (Nat.div_small p (h * w)) by lia. assert (Hp2 : p / w < h) by (apply Nat.div_lt_upper_bound; lia). rewrite (Nat.mod_small (p / w)) by exact Hp2.
  cbn [o_divn complex_ops o_zero]. f_equal. rewrite osum_csum. apply csum_ext. intros i _. rewrite osum_csum. apply csum_ext. intros j _.
  rewrite Nat.mul_0_l, Nat.add_0_l, (Nat.mul_comm k w). reflexivity.
Qed.
Lemma subsample2_sim B m n k x t : 0 < k -> 0 < m -> 0 < n -> R3 2 B (k * m) (k * n) x t ->
  sim st (R3 2 B m n) (np2_subsample complex_ops x (PInt (Z.of_nat k))) (t2_subsample t (PInt (Z.of_nat k))).
Proof.
  intros Hk Hm Hn H. destruct (R3_imgs _ _ _ _ _ _ H) as (ims & -> & Hi & _ & _ & ->).
  cbn [dt Nat.eqb]. rewrite (np2_subsample_of complex_ops B (k * m) (k * n) ims Hi k) by first [nia|apply Nat.divide_factor_l|lia].
  unfold t2_subsample, t_contiguous_check, t_complex_check. cbn [t_contig t_shape t_data t_dtype negb raise_if bind]. rewrite split_last_snoc. cbn [bind Nat.eqb negb raise_if].
  destruct (Z.ltb_spec (Z.of_nat k) 0); [lia|]. rewrite Nat2Z.id.
  unfold t_subsample2, t_contiguous_check, t_complex_check. cbn [t_contig t_shape t_data t_dtype negb raise_if bind]. rewrite split_last_snoc. cbn [bind Nat.eqb negb raise_if].
  unfold split_image. cbn [app rev bind]. destruct (Nat.eqb_spec (k * m * (k * n)) 0); [nia|]. destruct (Nat.eqb_spec k 0); [lia|].
  rewrite !(Nat.mul_comm k m), !(Nat.mul_comm k n), !Nat.div_mul by lia. rewrite !(Nat.mul_comm m k), !(Nat.mul_comm n k), !Nat.eqb_refl. cbn [andb orb].
  replace (prod [B]) with B by (cbn; lia). rewrite (flat_chunks 2) by lia. pose proof (imgs_chunks [B] (k * m) (k * n) ims Hi) as Hc. replace (prod [B]) with B in Hc by (cbn; lia). rewrite Hc.
  apply sim_ok. split; [split; [|reflexivity]|reflexivity].
  assert (E : concat (map (fun image => periodize_row real_ops k (m * n * 2) (concat (map (periodize_row real_ops k (n * 2)) (chunks (k * m) (k * n * 2) image)))) (map (flat 2) ims)) =
              flat 2 (concat (map (fold_img complex_ops (k * m) (k * n) k) ims))).
  { rewrite flat_concat, !map_map. f_equal. destruct Hi as [_ Hi]. rewrite Forall_forall in Hi. apply map_ext_in. intros im Him.
    rewrite periodize_image by first [lia|now apply Hi]. f_equal. now apply fold_mean2. }
  rewrite E. apply (R3_intro 2); [now right|discriminate|]. apply (imgs_ok_map _ (k * m) (k * n)); [|exact Hi]. intros im Him. unfold fold_img.
  rewrite img_length, !(Nat.mul_comm k), !Nat.div_mul by lia. reflexivity.
Qed.
Lemma unpad2_sim B m n x t : rep 1 3 x t -> nd_shape x = [B; m; n] ->
  sim st (fun y u => plain 3 y u /\ nd_shape y = [B; m - 2; n - 2]) (np2_unpad complex_ops x) (t2_unpad t).
Proof.
  intros H Hs. destruct (of_imgs_intro x [B] m n (rp_wf H) Hs) as (ims & E & Hi). rewrite (rp_dt H) in E. cbn [dt Nat.eqb] in E.
  rewrite E, np2_unpad_of by exact Hi. unfold t2_unpad. rewrite (rp_shape H), Hs. unfold split_image. cbn [app rev bind].
  replace (prod [B; m - 2; n - 2; 1]) with (prod [B; m - 2; n - 2]) by (cbn; lia). rewrite Nat.eqb_refl.
  rewrite (rp_data H), flat_1, E. cbn [of_imgs nd_data]. rewrite (Nat.mul_1_r (m * n)). rewrite map_chunks.
  pose proof (imgs_chunks [B] m n ims Hi) as Hc. match goal with |- context [map (map fst) ?l] => replace l with ims by (symmetry; exact Hc) end.
  assert (Hr : reals (concat ims)) by (pose proof (rp_real H eq_refl) as G; rewrite E in G; exact G).
  apply sim_ok. split; [|reflexivity]. constructor; try reflexivity.
  - apply of_imgs_wf, (imgs_ok_map _ m n); [|exact Hi]. intros im _. apply img_length.
  - cbn [of_imgs nd_data]. apply Forall_concat, Forall_map, Forall_forall. intros im Him. apply reals_img. intros u v. apply iat_real.
    apply reals_in. intros z Hz. apply (proj1 (reals_in _) Hr). apply in_concat. eauto.
  - apply (rp_dtype H).
  - cbn [of_imgs nd_data t_data]. rewrite concat_map, !map_map. f_equal. destruct Hi as [_ Hi]. rewrite Forall_forall in Hi. apply map_ext_in. intros im Him.
    unfold unpad_img. rewrite <- crop_img by now apply Hi. rewrite concat_map, map_map. f_equal. apply map_ext. intros u. now rewrite !Nat.mul_1_r, skipn_map, firstn_map.
Qed.

(** ** Padding *)
Lemma pad_img_fst M N a b l r im : pad_img real_ops M N a b l r (map fst im) = map fst (pad_img complex_ops M N a b l r im).
Proof. unfold pad_img. rewrite map_img. unfold img. apply map_ext. intros p. apply iat_fst. Qed.
Lemma plain_imgs B m n x t : plain 3 x t -> nd_shape x = [B; m; n] -> exists ims, x = of_imgs Real [B] m n ims /\ imgs_ok [B] m n ims /\ reals (concat ims) /\
  t = mk_t d [B; m; n] (concat (map (map fst) ims)) (t_contig t).
Proof.
  intros H Hs. destruct (of_imgs_intro x [B] m n (pl_wf H) Hs) as (ims & E & Hi). rewrite (pl_dt H) in E. exists ims. split; [exact E|]. split; [exact Hi|].
  split; [pose proof (pl_real H) as G; rewrite E in G; exact G|].
  pose proof (pl_data H) as D. pose proof (pl_shape H) as S. rewrite Hs in S. rewrite E in D. cbn [of_imgs nd_data] in D. pose proof (pl_dtype H) as T. rewrite concat_map in D.
  destruct t as [td ts tl tc]. cbn [t_dtype t_shape t_data t_contig] in *. rewrite T, S. f_equal. exact D.
Qed.
Lemma pad2_gen B M N t b l r x u : 2 <= M -> 2 <= N -> pad_ok M t b -> pad_ok N l r -> plain 3 x u -> nd_shape x = [B; M; N] ->
  sim st (R3 1 B (t + M + b) (l + N + r)) (np2_pad complex_ops (Z.of_nat t, Z.of_nat b, Z.of_nat l, Z.of_nat r) (Z.of_nat M, Z.of_nat N) x)
    (t2_pad (Z.of_nat t, Z.of_nat b, Z.of_nat l, Z.of_nat r) (Z.of_nat M, Z.of_nat N) u).
Proof.
  intros HM HN Pt Pl H Hs. destruct (plain_imgs _ _ _ _ _ H Hs) as (ims & -> & Hi & Hr & Et).
  assert (Hi' : imgs_ok [B] M N (map (map fst) ims)).
  { destruct Hi as [H1 H2]. split; [now rewrite map_length|]. apply Forall_map. eapply Forall_impl; [|exact H2]. intros im Him. now rewrite map_length. }
  rewrite np2_pad_of by first [exact Hi|lia].
  rewrite Et. unfold t2_pad. cbn [t_shape t_data t_dtype]. change (mk_nd Real [B; M; N] (concat (map (map fst) ims))) with (of_imgs Real [B] M N (map (map (@fst R R)) ims)).
  unfold torch2_pad. rewrite special_pad_of by first [exact Hi'|lia|assumption]. cbn [bind of_imgs nd_dtype nd_shape nd_data].
  apply sim_ok. split; [split; [|reflexivity]|reflexivity].
  match goal with |- TorchRel.rep _ _ _ (of_imgs _ _ _ _ (map ?f ims)) _ => set (g := f) end.
  match goal with |- context [concat (map ?f (map (map fst) ims))] => replace (concat (map f (map (map fst) ims))) with (flat 1 (concat (map g ims))) end.
  2:{ rewrite flat_1, concat_map, !map_map. f_equal. apply map_ext. intros im. symmetry. apply pad_img_fst. }
  apply (R3_intro 1); [now left| |].
  - intros _. apply Forall_concat, Forall_map, Forall_forall. intros im Him. apply reals_img. intros u0 v. apply iat_real.
    apply reals_in. intros z Hz. apply (proj1 (reals_in _) Hr). apply in_concat. eauto.
  - apply (imgs_ok_map _ M N); [|exact Hi]. intros im _. unfold g, pad_img. apply img_length.
Qed.
Lemma pad2_sim p B x t : accepted2 p -> plain 3 x t -> nd_shape x = [B; Z.to_nat (a_M p); Z.to_nat (a_N p)] ->
  sim st (R3 1 B (Mp p) (Np p)) (np2_pad complex_ops (pads2 p) (a_M p, a_N p) x) (t2_pad (pads2 p) (a_M p, a_N p) t).
Proof.
  intros Hp H Hs. pose proof (pos2 p Hp). destruct (pads2_nat p Hp) as (E & EM & EN).
  rewrite E, <- EM, <- EN. destruct Hp as (HJ & HM & HN).
  replace (a_M p, a_N p) with (Z.of_nat (Z.to_nat (a_M p)), Z.of_nat (Z.to_nat (a_N p))) by (f_equal; lia).
  apply pad2_gen; try assumption; try lia; apply pad_ok_frontend; lia.
Qed.
Lemma unsqueeze2_sim B m n x t : plain 3 x t -> nd_shape x = [B; m; n] -> t_contig t = true -> sim st (R3 1 B m n) (Ok x) (t2_unsqueeze t).
Proof.
  intros H Hs Hc. apply sim_ok. split; [split; [|exact Hc]|exact Hs]. constructor; cbn [t_dtype t_shape t_data].
  - apply (pl_wf H).
  - apply (pl_rank H).
  - now left.
  - apply (pl_dt H).
  - intros _. apply (pl_real H).
  - apply (pl_dtype H).
  - now rewrite (pl_shape H).
  - now rewrite (pl_data H), flat_1.
Qed.

(** ** The core *)
Record frel2 (f : filter2 (nd C)) (f' : filter2 tensor) : Prop := {
  fr2_levels : Forall2 (crep 1 2) (g_levels f) (g_levels f'); fr2_j : g_j f = g_j f'; fr2_theta : g_theta f = g_theta f'
}.
Section Core.
Variables (J : Z) (B M N : nat) (phi : filter2 (nd C)) (phi' : filter2 tensor) (psi : list (filter2 (nd C))) (psi' : list (filter2 tensor)).
Hypothesis (HJ : (0 <= J)%Z) (HM : 0 < M) (HN : 0 < N) (DM : Nat.divide (p2 J) M) (DN : Nat.divide (p2 J) N).
Hypothesis (Hphi : frel2 phi phi') (Hpsi : Forall2 frel2 psi psi') (Hj : forall f, In f psi -> (0 <= g_j f < J)%Z).
Notation np2 := (numpy_backend2 complex_ops).
Notation tb := torch_backend2.

(** The images at scale [j]. *)
Definition at2 (c : nat) (j : Z) : nd C -> tensor -> Prop := R3 c B (M / p2 j) (N / p2 j).
Definition low2 (y : nd C) (u : tensor) : Prop := plain 3 y u /\ nd_shape y = [B; M / p2 J - 2; N / p2 J - 2].
Lemma size_at (a b : Z) S : (0 <= a)%Z -> (a <= b <= J)%Z -> 0 < S -> Nat.divide (p2 J) S -> S / p2 a = p2 (b - a) * (S / p2 b) /\ 0 < S / p2 b.
Proof.
  intros Ha Hb HS HD. assert (D : Nat.divide (p2 b) S). { eapply Nat.divide_trans; [|exact HD]. replace J with (b + (J - b))%Z by lia. rewrite p2_add by lia. apply Nat.divide_factor_l. }
  destruct D as [q ->]. pose proof (p2_pos b) as Pb. pose proof (p2_pos a) as Pa. rewrite Nat.div_mul by lia. split; [|nia].
  replace b with ((b - a) + a)%Z at 1 by lia. rewrite p2_add by lia. rewrite Nat.mul_assoc, Nat.div_mul by lia. lia.
Qed.
Lemma subsample_at a b x t : (0 <= a)%Z -> (a <= b <= J)%Z -> at2 2 a x t -> sim st (at2 2 b) (b2_subsample np2 x (pow2 (b - a))) (b2_subsample tb t (pow2 (b - a))).
Proof.
  intros Ha Hb H. unfold at2 in *. destruct (size_at a b M Ha Hb HM DM) as [E1 P1]. destruct (size_at a b N Ha Hb HN DN) as [E2 P2]. rewrite E1, E2 in H.
  unfold pow2. destruct (Z.ltb_spec (b - a) 0); [lia|]. replace (2 ^ (b - a))%Z with (Z.of_nat (p2 (b - a))) by (apply Zpow_p2; lia).
  cbn [b2_subsample numpy_backend2 torch_backend2]. apply subsample2_sim; try assumption. apply p2_pos.
Qed.
Lemma pos_at a S : (0 <= a <= J)%Z -> 0 < S -> Nat.divide (p2 J) S -> 0 < S / p2 a.
Proof. intros Ha HS HD. now apply (size_at a a S). Qed.
Lemma lowpass2_sim l U U' : (0 <= l <= J)%Z -> at2 2 l U U' -> sim st low2 (lowpass2 np2 phi U l (J - l)) (lowpass2 tb phi' U' l (J - l)).
Proof.
  intros Hl H. unfold lowpass2. eapply sim_bind; [apply sim_py_index, (fr2_levels _ _ Hphi)|]. intros w u Hw.
  eapply sim_bind; [apply cdgmm2_sim; [exact H|exact Hw]|]. intros y y' Hy.
  eapply sim_bind; [apply (subsample_at l J); [lia|lia|exact Hy]|]. intros z z' Hz.
  eapply sim_bind; [apply irfft2_sim; [apply pos_at|apply pos_at|exact Hz]; (assumption || lia)|]. intros v v' [Hv Hs].
  now apply unpad2_sim.
Qed.
Definition prel2 (q : path2 (nd C)) (q' : path2 tensor) : Prop := low2 (r_coef q) (r_coef q') /\ r_j q = r_j q' /\ r_n q = r_n q' /\ r_theta q = r_theta q'.
Lemma second2_sim n1 j1 th1 U U' n2 f f' : (0 <= j1 < J)%Z -> at2 2 j1 U U' -> frel2 f f' -> In f psi ->
  sim st (Forall2 prel2) (second2 np2 J phi n1 j1 th1 U (n2, f)) (second2 tb J phi' n1 j1 th1 U' (n2, f')).
Proof.
  intros H1 HU Hf Hin. unfold second2. rewrite <- (fr2_j _ _ Hf), <- (fr2_theta _ _ Hf). pose proof (Hj f Hin) as H2. destruct (Z.leb_spec (g_j f) j1); [apply sim_ok; constructor|].
  eapply sim_bind; [apply sim_py_index, (fr2_levels _ _ Hf)|]. intros w u Hw.
  eapply sim_bind; [apply cdgmm2_sim; [exact HU|exact Hw]|]. intros y y' Hy.
  eapply sim_bind; [apply (subsample_at j1 (g_j f)); [lia|lia|exact Hy]|]. intros z z' Hz.
  assert (P1 : 0 < M / p2 (g_j f)) by (apply pos_at; (assumption || lia)). assert (P2 : 0 < N / p2 (g_j f)) by (apply pos_at; (assumption || lia)).
  eapply sim_bind; [apply ifft2_sim; [exact P1|exact P2|exact Hz]|]. intros a a' Ha.
  eapply sim_bind; [apply modulus2_sim, Ha|]. intros b b' Hb.
  eapply sim_bind; [apply rfft2_sim; [exact P1|exact P2|exact Hb]|]. intros c c' Hc.
  eapply sim_bind; [apply lowpass2_sim; [lia|exact Hc]|]. intros e e' He.
  apply sim_ok. repeat constructor; assumption || apply He.
Qed.
Lemma enum_rel {A A'} (Rl : A -> A' -> Prop) l l' : Forall2 Rl l l' -> Forall2 (fun a a' => fst a = fst a' /\ Rl (snd a) (snd a') /\ In (snd a) l) (enumerate l) (enumerate l').
Proof.
  intros H. unfold enumerate. assert (G : forall k m, (forall x, In x l -> In x m) -> Forall2 (fun a a' => fst a = fst a' /\ Rl (snd a) (snd a') /\ In (snd a) m) (enum_from k l) (enum_from k l')).
  { induction H as [|x y l l' Hx H IH]; intros k m Hm; cbn [enum_from]; constructor.
    - cbn. split; [reflexivity|]. split; [exact Hx|]. apply Hm. now left.
    - apply IH. intros z Hz. apply Hm. now right. }
  apply G. auto.
Qed.
Lemma first2_sim mo U U' n1 f f' : at2 2 0 U U' -> frel2 f f' -> In f psi ->
  sim st (fun a b => prel2 (fst a) (fst b) /\ Forall2 prel2 (snd a) (snd b)) (first2 np2 J phi psi mo U (n1, f)) (first2 tb J phi' psi' mo U' (n1, f')).
Proof.
  intros HU Hf Hin. unfold first2. rewrite <- (fr2_j _ _ Hf), <- (fr2_theta _ _ Hf). pose proof (Hj f Hin) as H1.
  eapply sim_bind; [apply sim_py_index, (fr2_levels _ _ Hf)|]. intros w u Hw.
  eapply sim_bind; [apply cdgmm2_sim; [exact HU|exact Hw]|]. intros y y' Hy.
  assert (S1 : sim st (at2 2 (g_j f)) (if (0 <? g_j f)%Z then b2_subsample np2 y (pow2 (g_j f)) else Ok y) (if (0 <? g_j f)%Z then b2_subsample tb y' (pow2 (g_j f)) else Ok y')).
  { destruct (Z.ltb_spec 0 (g_j f)).
    - pose proof (subsample_at 0 (g_j f) y y' ltac:(lia) ltac:(lia) Hy) as G. now rewrite Z.sub_0_r in G.
    - apply sim_ok. replace (g_j f) with 0%Z by lia. exact Hy. }
  eapply sim_bind; [exact S1|]. intros z z' Hz.
  assert (P1 : 0 < M / p2 (g_j f)) by (apply pos_at; (assumption || lia)). assert (P2 : 0 < N / p2 (g_j f)) by (apply pos_at; (assumption || lia)).
  eapply sim_bind; [apply ifft2_sim; [exact P1|exact P2|exact Hz]|]. intros a a' Ha.
  eapply sim_bind; [apply modulus2_sim, Ha|]. intros b b' Hb.
  eapply sim_bind; [apply rfft2_sim; [exact P1|exact P2|exact Hb]|]. intros c c' Hc.
  eapply sim_bind; [apply lowpass2_sim; [lia|exact Hc]|]. intros e e' He. cbv zeta.
  assert (Q : prel2 (mk_path2 e [g_j f] [n1] [g_theta f]) (mk_path2 e' [g_j f] [n1] [g_theta f])) by (repeat split; apply He).
  destruct (mo <? 2)%Z; [apply sim_ok; split; [exact Q|constructor]|].
  eapply sim_bind; [apply (sim_mapM st _ (Forall2 prel2) _ _ _ _ (enum_rel frel2 psi psi' Hpsi))|].
  - intros [n2 g] [n2' g'] (E & Hg & Hg'). cbn [fst snd] in *. subst n2'. apply second2_sim; assumption || lia.
  - intros ps ps' Hps. apply sim_ok. split; [exact Q|]. cbn [snd]. clear - Hps. induction Hps; cbn [concat]; [constructor|]. now apply Forall2_app.
Qed.
Lemma paths2_sim pad pad' mo x t : sim st (R3 1 B M N) (pad x) (pad' t) ->
  sim st (Forall2 prel2) (paths2 np2 J phi psi pad mo x) (paths2 tb J phi' psi' pad' mo t).
Proof.
  intros Hpad. unfold paths2. eapply sim_bind; [exact Hpad|]. intros a a' Ha.
  eapply sim_bind; [apply rfft2_sim; [exact HM|exact HN|exact Ha]|]. intros U U' HU.
  assert (HU0 : at2 2 0 U U') by (unfold at2; rewrite !div_p2_0; exact HU).
  eapply sim_bind; [pose proof (lowpass2_sim 0 U U' ltac:(lia) HU0) as G; rewrite Z.sub_0_r in G; exact G|]. intros s s' Hs.
  eapply sim_bind; [apply (sim_mapM st _ (fun a b => prel2 (fst a) (fst b) /\ Forall2 prel2 (snd a) (snd b)) _ _ _ _ (enum_rel frel2 psi psi' Hpsi))|].
  - intros [n1 g] [n1' g'] (E & Hg & Hg'). cbn [fst snd] in *. subst n1'. now apply first2_sim.
  - intros ps ps' Hps. apply sim_ok. constructor; [repeat split; apply Hs|]. apply Forall2_app.
    + clear - Hps. induction Hps as [|a b l l' [Hx _] H IH]; cbn [map]; constructor; assumption.
    + clear - Hps. induction Hps as [|a b l l' [_ Hx] H IH]; cbn [map concat]; [constructor|]. now apply Forall2_app.
Qed.
End Core.

(** ** The frontend *)
(** Arrays, or lists of paths with the same labels. *)
Definition out_rel2 (k : nat) (a : output2 (nd C)) (b : output2 tensor) : Prop :=
  match a, b with
  | Array2 y, Array2 u => plain (S k) y u
  | List2 l, List2 l' => Forall2 (fun q q' => plain k (r_coef q) (r_coef q') /\ r_j q = r_j q' /\ r_n q = r_n q' /\ r_theta q = r_theta q') l l'
  | _, _ => False
  end.
Lemma reshape2_sim k x t s : plain k x t -> sim st (plain (length s)) (reshape s x) (t2_reshape s t).
Proof.
  intros H. unfold reshape, t2_reshape. rewrite (pl_shape H). destruct (Nat.eqb_spec (prod s) (prod (nd_shape x))) as [E|E]; [|apply sim_shape_err].
  apply sim_ok. constructor; try reflexivity; cbn [nd_data nd_dtype t_dtype t_data]; try apply H. unfold nd_wf. cbn [nd_data nd_shape]. rewrite E. apply (pl_wf H).
Qed.
Lemma reshape_infer2_sim k x t s : plain k x t -> sim st (fun y u => plain (S (length s)) y u /\ (exists B, nd_shape y = B :: s) /\ t_contig u = t_contig t) (reshape_infer s x) (t2_reshape_infer s t).
Proof.
  intros H. unfold reshape_infer, t2_reshape_infer. rewrite (pl_shape H). destruct (Nat.eqb_spec (prod s) 0); [apply sim_shape_err|].
  destruct (Nat.eqb_spec (prod (nd_shape x) mod prod s) 0) as [E|E]; [|apply sim_shape_err].
  apply sim_ok. split; [|split; [eexists; reflexivity|reflexivity]]. constructor; try reflexivity; cbn [nd_data nd_dtype t_dtype t_data]; try apply H.
  unfold nd_wf. cbn [nd_data nd_shape]. rewrite (pl_wf H). change (prod (prod (nd_shape x) / prod s :: s)) with (prod (nd_shape x) / prod s * prod s).
  pose proof (Nat.div_mod (prod (nd_shape x)) (prod s)) as G. nia.
Qed.

Lemma check2_same (s : scat2 (nd C) (nd C)) (s' : scat2 tensor tensor) k x t : plain k x t -> c_args s = c_args s' -> c_M_padded s = c_M_padded s' -> c_N_padded s = c_N_padded s' ->
  Frontend2d.check2 torch_backend2 s' t = Frontend2d.check2 (numpy_backend2 complex_ops) s x.
Proof. intros H E1 E2 E3. unfold Frontend2d.check2. cbn [b2_shape torch_backend2 numpy_backend2]. now rewrite (pl_shape H), E1, E2, E3. Qed.
Lemma raise_if_Ok b e u : raise_if b e = Ok u -> b = false.
Proof. destruct b; [discriminate|reflexivity]. Qed.
Lemma trailing_len n (s : list nat) : 0 < n <= length s -> length (trailing n s) = n.
Proof. intros H. unfold trailing. destruct n; [lia|]. rewrite skipn_length. lia. Qed.
Definition crel2 (k : nat) (q : path2 (nd C)) (q' : path2 tensor) : Prop := plain k (r_coef q) (r_coef q') /\ r_j q = r_j q' /\ r_n q = r_n q' /\ r_theta q = r_theta q'.
Lemma restore2_sim batch S S' : match S, S' with
    | Array2 y, Array2 u => plain 4 y u
    | List2 l, List2 l' => Forall2 (crel2 3) l l'
    | _, _ => False end ->
  sim st (out_rel2 (length batch + 2)) (restore2 (numpy_backend2 complex_ops) batch S) (restore2 torch_backend2 batch S').
Proof.
  destruct S as [y|l], S' as [u|l']; try contradiction; intros H; cbn [restore2].
  - cbn [b2_reshape b2_shape numpy_backend2 torch_backend2]. rewrite (pl_shape H).
    eapply sim_bind; [apply (reshape2_sim 4 y u _ H)|]. intros v w Hv. apply sim_ok. cbn [out_rel2]. rewrite app_length, trailing_len in Hv by (rewrite (pl_rank H); lia).
    now replace (S (length batch + 2)) with (length batch + 3) by lia.
  - eapply sim_bind; [apply sim_py_index, H|]. intros q q' (Hq & _). cbn [b2_reshape b2_shape numpy_backend2 torch_backend2]. rewrite (pl_shape Hq).
    eapply sim_bind; [apply (sim_mapM st _ (fun q q' => plain (length batch + 2) (r_coef q) (r_coef q') /\ r_j q = r_j q' /\ r_n q = r_n q' /\ r_theta q = r_theta q') _ _ _ _ H)|].
    + intros a b (Ha & E1 & E2 & E3). eapply sim_bind; [apply (reshape2_sim 3 _ _ _ Ha)|]. intros v w Hv. apply sim_ok. cbn [r_coef r_j r_n r_theta].
      rewrite app_length, trailing_len in Hv by (rewrite (pl_rank Hq); lia). auto.
    + intros v w Hv. apply sim_ok. exact Hv.
Qed.
(** Constructed objects with J >= 1. *)
Definition t2_padding (p : params2) : tensor -> res tensor :=
  if a_pre_pad p then t2_unsqueeze else t2_pad (pads2 p) (a_M p, a_N p).
Lemma scattering2_sim p k x t phi' psi' : accepted2 p -> plain k x t -> t_contig t = true ->
  frel2 (fst (bank2 p)) phi' -> Forall2 frel2 (snd (bank2 p)) psi' ->
  sim st (out_rel2 k) (scattering2 (numpy_backend2 complex_ops) (npobj p) x)
    (scattering2 torch_backend2 (mk_scat2 p (padded_size (a_M p) (a_J p)) (padded_size (a_N p) (a_J p)) (t2_padding p) phi' psi') t).
Proof.
  intros Hp Hx Hc Hphi Hpsi. unfold scattering2. rewrite (check2_same (npobj p) _ k x t Hx) by reflexivity.
  destruct (Frontend2d.check2 (numpy_backend2 complex_ops) (npobj p) x) as [[]|e] eqn:Ec; cbn [bind]; [|apply sim_err].
  unfold Frontend2d.check2 in Ec. cbn [b2_shape numpy_backend2] in Ec. destruct (split_last2 (nd_shape x)) as [[[pre m] n]|] eqn:Es; [|discriminate]. cbn [bind] in Ec.
  apply split_last2_inv in Es. inv_bind Ec. inv_bind Ec. apply raise_if_Ok in E, E0, Ec. cbn [npobj object2 c_args c_N_padded c_M_padded] in *.
  assert (Hmn : 0 < m /\ 0 < n).
  { destruct Hp as (HJ & HM & HN). assert (0 < 2 ^ a_J p)%Z by (apply Z.pow_pos_nonneg; lia). unfold padded_size in E0.
    pose proof (Z.div_str_pos (a_M p) (2 ^ a_J p)). pose proof (Z.div_str_pos (a_N p) (2 ^ a_J p)).
    destruct (a_pre_pad p); cbn [negb] in *; rewrite andb_true_r in *.
    - apply orb_false_iff in E0 as [E1 E2]. apply negb_false_iff in E1, E2. apply Z.eqb_eq in E1, E2. nia.
    - apply orb_false_iff in E as [E1 E2]. apply negb_false_iff in E1, E2. apply Z.eqb_eq in E1, E2. lia. }
  cbn [b2_shape numpy_backend2 torch_backend2 b2_reshape_infer]. rewrite (pl_shape Hx), Es, batch_signal_app by apply Hmn.
  eapply sim_bind; [apply (reshape_infer2_sim k x t [m; n] Hx)|]. intros y u (Hy & (B & Sy) & Hcu). rewrite Hc in Hcu.
  assert (Hk : k = length pre + 2) by (rewrite <- (pl_rank Hx), Es, app_length; reflexivity). rewrite Hk.
  pose proof (bank2_ready p Hp) as Hr.
  assert (Hpad : sim st (R3 1 B (Mp p) (Np p)) (c_pad (npobj p) y) (t2_padding p u)).
  { unfold t2_padding. cbn [npobj object2 c_pad]. destruct (a_pre_pad p); cbn [negb] in E, E0.
    - rewrite andb_true_r in E0. apply orb_false_iff in E0 as [E1 E2]. apply negb_false_iff in E1, E2. apply Z.eqb_eq in E1, E2.
      apply unsqueeze2_sim; [exact Hy| |exact Hcu]. rewrite Sy. unfold Mp, Np. repeat f_equal; lia.
    - rewrite andb_true_r in E. apply orb_false_iff in E as [E1 E2]. apply negb_false_iff in E1, E2. apply Z.eqb_eq in E1, E2.
      apply pad2_sim; [exact Hp|exact Hy|]. rewrite Sy. repeat f_equal; lia. }
  eapply sim_bind; [|intros a b Hab; apply restore2_sim; exact Hab].
  unfold scattering2d. cbn [c_args c_phi c_psi c_pad npobj object2].
  eapply sim_bind; [apply (paths2_sim (a_J p) B (Mp p) (Np p)); try apply Hr; try assumption|].
  { destruct Hp. lia. }
  intros ps ps' Hps. destruct (String.eqb (a_out_type p) "array").
  - cbn [b2_stack numpy_backend2 torch_backend2]. eapply sim_bind; [apply (stack_plain d st 3 (-3) _ _ 1); [|lia|lia]|].
    + clear - Hps. induction Hps as [|q q' l l' [[Hq _] _] H IH]; cbn [map]; constructor; assumption.
    + intros a b Hab. apply sim_ok. exact Hab.
  - apply sim_ok. clear - Hps. induction Hps as [|q q' l l' [[Hq _] Hl] H IH]; constructor; [split; assumption|assumption].
Qed.

(** J = 0: there is no low-pass filter to look up, in NumPy and in torch. *)
Lemma pads0 p : a_J p = 0%Z -> (1 <= a_M p)%Z -> (1 <= a_N p)%Z ->
  pads2 p = (Z.of_nat 1, Z.of_nat 1, Z.of_nat 1, Z.of_nat 1) /\ padded_size (a_M p) (a_J p) = (a_M p + 2)%Z /\ padded_size (a_N p) (a_J p) = (a_N p + 2)%Z.
Proof.
  intros HJ HM HN. assert (EM : padded_size (a_M p) (a_J p) = (a_M p + 2)%Z) by (rewrite HJ; unfold padded_size; cbn [Z.pow]; rewrite Z.div_1_r; lia).
  assert (EN : padded_size (a_N p) (a_J p) = (a_N p + 2)%Z) by (rewrite HJ; unfold padded_size; cbn [Z.pow]; rewrite Z.div_1_r; lia).
  split; [|split; assumption]. unfold pads2, pad_sizes. rewrite EM, EN. replace (a_M p + 2 - a_M p)%Z with 2%Z by lia. replace (a_N p + 2 - a_N p)%Z with 2%Z by lia. reflexivity.
Qed.
Lemma small_pad B M N u : 1 <= M -> 1 <= N -> M = 1 \/ N = 1 -> t_shape u = [B; M; N] ->
  t2_pad (Z.of_nat 1, Z.of_nat 1, Z.of_nat 1, Z.of_nat 1) (Z.of_nat M, Z.of_nat N) u = Err IndexError.
Proof.
  intros HM HN H Hs. unfold t2_pad, torch2_pad, special_pad. rewrite Hs. unfold reflection_pad. cbn [nd_shape split_last2 rev app bind].
  destruct (Z.eqb_spec (Z.of_nat 1) (Z.of_nat M)), (Z.eqb_spec (Z.of_nat 1) (Z.of_nat N)); try lia;
  change (split_last2 [B; M; N]) with (@Ok (list nat * nat * nat) ([B], M, N)); cbn [bind];
  repeat match goal with |- context [(?a <? ?b)%Z] => destruct (Z.ltb_spec a b); [lia|] end;
  repeat match goal with |- context [(?a <=? ?b)%Z] => destruct (Z.leb_spec a b); [lia|] end; cbn [orb bind].
  - assert (M = 1) by lia. subst M. reflexivity.
  - assert (M = 1) by lia. subst M. reflexivity.
  - assert (N = 1) by lia. subst N. reflexivity.
Qed.
Lemma reshape_infer_ok (x : nd C) pre m n : 0 < m -> 0 < n -> nd_shape x = pre ++ [m; n] -> exists y, reshape_infer [m; n] x = Ok y.
Proof.
  intros Hm Hn Hs. unfold reshape_infer. rewrite Hs. destruct (Nat.eqb_spec (prod [m; n]) 0) as [E|E]; [cbn in E; nia|].
  assert (Ep : prod (pre ++ [m; n]) = prod pre * prod [m; n]) by apply prod_app. rewrite Ep, Nat.mod_mul by exact E. cbn [Nat.eqb]. eauto.
Qed.
Lemma scattering2_sim0 p k x t phi' psi' : a_J p = 0%Z -> (1 <= a_M p)%Z -> (1 <= a_N p)%Z -> plain k x t -> t_contig t = true ->
  g_levels phi' = [] ->
  exists e, scattering2 (numpy_backend2 complex_ops) (npobj p) x = Err e /\
    scattering2 torch_backend2 (mk_scat2 p (padded_size (a_M p) (a_J p)) (padded_size (a_N p) (a_J p)) (t2_padding p) phi' psi') t = Err e.
Proof.
  intros HJ HM HN Hx Hc Hphi. unfold scattering2. rewrite (check2_same (npobj p) _ k x t Hx) by reflexivity.
  destruct (Frontend2d.check2 (numpy_backend2 complex_ops) (npobj p) x) as [[]|e] eqn:Ec; cbn [bind]; [|eauto].
  unfold Frontend2d.check2 in Ec. cbn [b2_shape numpy_backend2] in Ec. destruct (split_last2 (nd_shape x)) as [[[pre m] n]|] eqn:Es; [|discriminate]. cbn [bind] in Ec.
  apply split_last2_inv in Es. inv_bind Ec. inv_bind Ec. apply raise_if_Ok in E, E0, Ec. cbn [npobj object2 c_args c_N_padded c_M_padded] in *.
  destruct (pads0 p HJ HM HN) as (EP & EM & EN).
  assert (Hmn : 0 < m /\ 0 < n /\ (a_pre_pad p = false -> m = Z.to_nat (a_M p) /\ n = Z.to_nat (a_N p))).
  { rewrite EM, EN in E0. destruct (a_pre_pad p); cbn [negb] in *; rewrite andb_true_r in *.
    - apply orb_false_iff in E0 as [E1 E2]. apply negb_false_iff in E1, E2. apply Z.eqb_eq in E1, E2. repeat split; try lia; discriminate.
    - apply orb_false_iff in E as [E1 E2]. apply negb_false_iff in E1, E2. apply Z.eqb_eq in E1, E2. lia. }
  destruct Hmn as (Hm & Hn & Hmn).
  cbn [b2_shape numpy_backend2 torch_backend2 b2_reshape_infer]. rewrite (pl_shape Hx), Es, batch_signal_app by assumption.
  destruct (reshape_infer_ok x pre m n Hm Hn Es) as (y & Ey). pose proof (reshape_infer2_sim k x t [m; n] Hx) as Gr. rewrite Ey in Gr.
  destruct Gr as (u & Eu & Hy & (B & Sy) & Hcu). rewrite Hc in Hcu. rewrite Ey, Eu. cbn [bind].
  assert (Hb : sim st (R3 1 B (Z.to_nat (padded_size (a_M p) (a_J p))) (Z.to_nat (padded_size (a_N p) (a_J p)))) (c_pad (npobj p) y) (t2_padding p u) \/
    (t2_padding p u = Err IndexError /\ exists v, c_pad (npobj p) y = Ok v /\ exists w, np2_rfft complex_ops v = Ok w)).
  { unfold t2_padding. cbn [npobj object2 c_pad]. destruct (a_pre_pad p) eqn:Epp; cbn [negb] in E, E0.
    - rewrite andb_true_r in E0. apply orb_false_iff in E0 as [E1 E2]. apply negb_false_iff in E1, E2. apply Z.eqb_eq in E1, E2.
      left. apply unsqueeze2_sim; [exact Hy| |exact Hcu]. rewrite Sy. repeat f_equal; lia.
    - destruct (Hmn eq_refl) as [Em En]. rewrite EP, EM, EN.
      replace (a_M p, a_N p) with (Z.of_nat m, Z.of_nat n) by (f_equal; lia).
      replace (Z.to_nat (a_M p + 2)) with (1 + m + 1) by lia. replace (Z.to_nat (a_N p + 2)) with (1 + n + 1) by lia.
      destruct (Nat.eq_dec m 1) as [Em1|Em1]; [|destruct (Nat.eq_dec n 1) as [En1|En1]].
      3:{ left. apply pad2_gen; try assumption; try lia; left; lia. }
      all: right; split; [apply (small_pad B); [lia|lia|lia|now rewrite (pl_shape Hy)]|];
        destruct (plain_imgs _ _ _ _ _ Hy Sy) as (ims & -> & Hi & _); rewrite np2_pad_of by first [exact Hi|lia];
        eexists; split; [reflexivity|];
        rewrite np2_rfft_of; [eexists; reflexivity|apply (imgs_ok_map _ m n); [intros im _; apply img_length|exact Hi]|lia|lia]. }
  exists IndexError. unfold scattering2d, paths2. cbn [c_args c_phi c_psi c_pad npobj object2] in *. destruct Hb as [Hb|(E1 & v1 & E2 & w & E3)].
  - assert (Hv : exists v, c_pad (npobj p) y = Ok v).
    { cbn [npobj object2 c_pad]. destruct (a_pre_pad p); [eauto|]. destruct (Hmn eq_refl) as [Em En]. rewrite EP.
      replace (a_M p, a_N p) with (Z.of_nat m, Z.of_nat n) by (f_equal; lia). destruct (plain_imgs _ _ _ _ _ Hy Sy) as (ims & -> & Hi & _). rewrite np2_pad_of by first [exact Hi|lia]. eauto. }
    destruct Hv as (U & EU). cbn [npobj object2 c_pad] in EU. rewrite EU in Hb |- *. destruct Hb as (U' & EU' & HU). rewrite EU'. cbn [bind b2_rfft numpy_backend2 torch_backend2].
    rewrite EM, EN in HU. pose proof (rfft2_sim B (Z.to_nat (a_M p + 2)) (Z.to_nat (a_N p + 2)) U U' ltac:(lia) ltac:(lia) HU) as Gf.
    destruct (R3_imgs _ _ _ _ _ _ HU) as (ims & EI & Hi & _). cbn [dt Nat.eqb] in EI. rewrite EI in Gf |- *. rewrite np2_rfft_of in Gf |- * by first [exact Hi|lia].
    destruct Gf as (V & EV & _). rewrite EV. cbn [bind]. unfold lowpass2. rewrite Hphi. unfold bank2. rewrite HJ. split; reflexivity.
  - rewrite E1, E2. cbn [bind b2_rfft numpy_backend2]. rewrite E3. cbn [bind]. unfold lowpass2, bank2. rewrite HJ. split; reflexivity.
Qed.
End Sim.
