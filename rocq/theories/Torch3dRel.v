(** Every operation of the 3-D torch backend simulates the NumPy one, and the transforms agree. *)
From Coq Require Import String Reals ZArith List Bool Arith Lia Lra.
From Coquelicot Require Import Complex.
From Verif Require Import Base BaseProofs NdArray Backend ComplexOps NdProofs Construct1d Rows1d StackProofs Backend2d Images Dft Conv1d Dft2 Mats Backend3d Core3d FilterBank3d Frontend3d Dft3 Rows3d
  Torch1d TorchRel TorchSim TorchStack TorchModule TorchModuleProofs TorchFront TorchConstructed Torch2d Torch2dRel Torch3d.
Import ListNotations.
Local Open Scope nat_scope.
Local Open Scope res_scope.

Lemma Forall2_same {A} (l : list A) : Forall2 eq l l.
Proof. induction l; constructor; auto. Qed.
Lemma fst_integral q v : fst (integral q v) = Rsum (map (fun a => rpow a q) (map fst v)).
Proof. unfold integral. rewrite fst_osum, !map_map. unfold Rsum. induction v as [|z v IH]; [reflexivity|]. cbn [map fold_right]. rewrite <- IH. reflexivity. Qed.
Lemma snd_integral q v : snd (integral q v) = 0%R.
Proof. apply snd_osum0, Forall_map, Forall_forall. reflexivity. Qed.
Lemma sq_Cmod z : (Rpow_def.pow (Cmod z) 2 = Rpow_def.pow (fst z) 2 + Rpow_def.pow (snd z) 2)%R.
Proof. unfold Cmod. apply pow2_sqrt. cbn. nra. Qed.

Section Sim.
Variable (d : fdtype) (st : bool).
Notation rep := (rep d). Notation crep := (crep d). Notation plain := (plain d).

(** A batch of [B] volumes of [M x N x D] voxels. *)
Definition R4 (c B M N D : nat) (x : nd C) (t : tensor) : Prop := crep c 4 x t /\ nd_shape x = [B; M; N; D].
Lemma vols_intro (x : nd C) B M N D : nd_wf x -> nd_shape x = [B; M; N; D] -> exists vols, x = of_vols (nd_dtype x) B M N D vols /\ vols_ok B M N D vols.
Proof.
  intros Hw Hs. assert (Hl : length (nd_data x) = B * (M * (N * D))) by (rewrite Hw, Hs; cbn; lia). destruct (chunks_ok B (M * (N * D)) (nd_data x) Hl) as (E2 & E3 & E1).
  exists (chunks B (M * (N * D)) (nd_data x)). split.
  - unfold of_vols. rewrite E1. destruct x as [dx sx lx]. cbn in *. now subst.
  - split; [|exact E3]. rewrite E2. cbn. lia.
Qed.
Lemma R4_vols c B M N D x t : R4 c B M N D x t -> exists vols, x = of_vols (dt c) B M N D vols /\ vols_ok B M N D vols /\
  (c = 1 \/ c = 2) /\ (c = 1 -> reals (concat vols)) /\ t = mk_t d ([B; M; N; D] ++ [c]) (flat c (concat vols)) true.
Proof.
  intros [[H Hc] Hs]. destruct (vols_intro x B M N D (rp_wf H) Hs) as (vols & E & Hi). rewrite (rp_dt H) in E. exists vols. split; [exact E|]. split; [exact Hi|].
  split; [apply (rp_c H)|]. split; [intros ->; pose proof (rp_real H eq_refl) as G; rewrite E in G; exact G|].
  pose proof (rp_data H) as DD. pose proof (rp_shape H) as S. rewrite Hs in S. rewrite E in DD. cbn [of_vols nd_data] in DD. pose proof (rp_dtype H) as T.
  destruct t as [td ts tl tc]. cbn in *. congruence.
Qed.
Lemma of_vols_wf dd B M N D vols : vols_ok B M N D vols -> nd_wf (of_vols dd B M N D vols).
Proof.
  intros [H1 H2]. unfold nd_wf, of_vols. cbn [nd_data nd_shape]. assert (G : forall n (l : list (list C)), List.Forall (fun r => length r = n) l -> length (concat l) = length l * n).
  { clear. intros n l H. induction H as [|r l E H IH]; [reflexivity|]. cbn [concat length]. rewrite app_length, IH, E. lia. }
  rewrite (G _ _ H2), H1. cbn. lia.
Qed.
Lemma R4_intro c B M N D vols flag : c = 1 \/ c = 2 -> (c = 1 -> reals (concat vols)) -> vols_ok B M N D vols ->
  rep c 4 (of_vols (dt c) B M N D vols) (mk_t d ([B; M; N; D] ++ [c]) (flat c (concat vols)) flag).
Proof. intros Hc Hr Hi. constructor; try reflexivity; try assumption. now apply of_vols_wf. Qed.

Section Sizes.
Variables (B M N D : nat).
Hypothesis (HM : 0 < M) (HN : 0 < N) (HD : 0 < D).
Notation V := (M * (N * D)).
Notation R4 c := (R4 c B M N D).
Lemma fft3_vols f vols : vols_ok B M N D vols -> t3_fft_vols f [B; M; N; D] (concat vols) = Ok (concat (map (sep3 f M N D) vols)).
Proof.
  intros Hi. unfold t3_fft_vols. change (split_last3 [B; M; N; D]) with (Ok ([B], M, N, D)). cbv iota.
  destruct (Nat.eqb_spec M 0); [lia|]. destruct (Nat.eqb_spec N 0); [lia|]. destruct (Nat.eqb_spec D 0); [lia|]. cbn [orb].
  replace (prod [B]) with B by (cbn; lia). pose proof (vols_chunks B M N D HM HN HD vols Hi) as Hc. unfold C in *. now rewrite Hc.
Qed.
Lemma rfft3_sim x t : R4 1 x t -> sim st (R4 2) (np3_rfft x) (t3_rfft t).
Proof.
  intros H. destruct (R4_vols _ _ _ _ _ _ _ H) as (vols & -> & Hi & _ & Hr & ->). cbn [dt Nat.eqb]. rewrite np3_rfft_of by assumption.
  unfold t3_rfft, t_contiguous_check, t_real_check. cbn [t_contig t_shape t_data t_dtype negb raise_if bind]. rewrite split_last_snoc. cbn [bind Nat.eqb negb raise_if].
  rewrite flat_1, of_pairs_real by now apply Hr. rewrite fft3_vols by assumption. cbn [bind]. apply sim_ok.
  split; [split; [|reflexivity]|reflexivity]. rewrite <- flat_2. apply (R4_intro 2); [now right|discriminate|]. apply vols_ok_map; [intros; apply dft3_length|exact Hi].
Qed.
Lemma ifft3_sim x t : R4 2 x t -> sim st (R4 2) (np3_ifft x) (t3_ifft t).
Proof.
  intros H. destruct (R4_vols _ _ _ _ _ _ _ H) as (vols & -> & Hi & _ & Hr & ->). cbn [dt Nat.eqb]. rewrite np3_ifft_of by assumption.
  unfold t3_ifft, t_contiguous_check, t_complex_check. cbn [t_contig t_shape t_data t_dtype negb raise_if bind]. rewrite split_last_snoc. cbn [bind Nat.eqb negb raise_if].
  rewrite of_flat. rewrite fft3_vols by assumption. cbn [bind]. apply sim_ok.
  split; [split; [|reflexivity]|reflexivity]. rewrite <- flat_2. apply (R4_intro 2); [now right|discriminate|]. apply vols_ok_map; [intros; apply sep3_length|exact Hi].
Qed.
Lemma modulus3_sim x t : R4 2 x t -> sim st (R4 1) (np_modulus complex_ops x) (t_modulus t).
Proof.
  intros [H Hs]. pose proof (modulus_sim d st 4 x t H) as G. unfold np_modulus in *. rewrite (rp_dt (proj1 H)) in *. cbn [dt Nat.eqb sim] in *.
  destruct G as (y & E & Hy). exists y. split; [exact E|]. split; [exact Hy|exact Hs].
Qed.
Lemma cdgmm3_sim x t w u : R4 2 x t -> crep 2 3 w u -> sim st (R4 2) (np_cdgmm complex_ops x w) (t_cdgmm t u).
Proof.
  intros H [Hw Hcw]. destruct (R4_vols _ _ _ _ _ _ _ H) as (vols & -> & Hi & _ & _ & ->). unfold np_cdgmm, is_complex, is_real. rewrite (rp_dt Hw). cbn [dt Nat.eqb negb andb of_vols nd_dtype nd_shape nd_data].
  unfold t_cdgmm. rewrite (rp_shape Hw), split_last_snoc. cbn [bind Nat.eqb]. unfold t_complex_check at 1. rewrite (rp_shape Hw), split_last_snoc. cbn [bind Nat.eqb negb raise_if].
  rewrite (contig _ Hcw). cbn [bind t_shape t_data t_dtype t_contig].
  unfold t_complex_check, t_contiguous_check. cbn [t_shape t_contig negb raise_if]. rewrite split_last_snoc. cbn [bind Nat.eqb negb raise_if].
  pose proof (rp_rank Hw) as Hrk. destruct (nd_shape w) as [|mw [|nw [|dw [|? ?]]]] eqn:Ew; try discriminate Hrk.
  cbn [length app trailing skipn Nat.sub Nat.add firstn].
  destruct (list_eq_dec Nat.eq_dec [M; N; D] [mw; nw; dw]) as [En|_]; [|apply sim_err].
  rewrite (rp_dtype Hw). replace (fdtype_eqb d d) with true by (destruct d; reflexivity). cbn [negb]. injection En as <- <- <-.
  replace (prod [M; N; D]) with V by (cbn; lia). rewrite (flat_chunks 2) by lia. replace (prod [B]) with B by (cbn; lia). match goal with |- context [map (flat 2) ?l] => replace l with vols by (symmetry; exact (vols_chunks B M N D HM HN HD vols Hi)) end. apply sim_ok.
  split; [split; [|reflexivity]|reflexivity].
  assert (E : concat (map (cdgmm_complex_row (t_data u)) (map (flat 2) vols)) = flat 2 (concat (map (mul_row complex_ops (nd_data w)) vols))).
  { rewrite flat_concat, !map_map. f_equal. apply map_ext. intros v. rewrite (rp_data Hw). apply mul_row_flat_complex. }
  match goal with |- context [concat (map (cdgmm_complex_row ?a) ?l)] => replace (concat (map (cdgmm_complex_row a) l)) with (flat 2 (concat (map (mul_row complex_ops (nd_data w)) vols))) by (symmetry; exact E) end.
  apply (R4_intro 2); [now right|discriminate|]. apply vols_ok_map; [|exact Hi]. intros v Hv.
  assert (Hlw : length (nd_data w) = V). { pose proof (rp_wf Hw) as G. unfold nd_wf in G. rewrite Ew in G. cbn in G. lia. }
  rewrite mul_row_length; congruence.
Qed.
Lemma rotation_sim x t m m' : R4 2 x t -> match m, m' with None, None => True | Some y, Some u => R4 1 y u | _, _ => False end ->
  sim st (R4 1) (np3_modulus_rotation x m) (t3_modulus_rotation t m').
Proof.
  intros [[H Hc] Hs] Hm. unfold np3_modulus_rotation, t3_modulus_rotation. rewrite (rp_shape H), split_last_snoc. cbn [bind].
  rewrite (rp_data H), of_flat, (rp_dtype H). destruct m as [y|], m' as [u|]; try contradiction.
  - destruct Hm as [[Hy Hcy] Hsy]. rewrite (rp_shape Hy), Hs, Hsy. destruct (list_eq_dec Nat.eq_dec [B; M; N; D] [B; M; N; D]) as [_|E]; [|congruence].
    destruct (list_eq_dec Nat.eq_dec ([B; M; N; D] ++ [1]) ([B; M; N; D] ++ [1])) as [_|E]; [|congruence]. apply sim_ok. split; [split; [|reflexivity]|reflexivity].
    constructor; cbn [nd_shape nd_dtype nd_data t_dtype t_shape t_data]; try reflexivity; try now left.
    + unfold nd_wf. cbn [nd_data nd_shape]. rewrite map_length, combine_length, (rp_wf H), (rp_wf Hy), Hs, Hsy. apply Nat.min_id.
    + intros _. apply Forall_map, Forall_forall. reflexivity.
    + rewrite (rp_data Hy), !flat_1, map_map. clear. generalize (nd_data x). induction (nd_data y) as [|a l IH]; intros [|z l']; try reflexivity. cbn [map combine]. rewrite IH. f_equal.
      unfold torch3_modulus_rotation_at. cbn [fst snd]. change (fst (RtoC ?r)) with r. unfold Re. now rewrite sq_Cmod.
  - apply sim_ok. split; [split; [|reflexivity]|exact Hs].
    constructor; cbn [nd_shape nd_dtype nd_data t_dtype t_shape t_data]; try reflexivity; try now left.
    + unfold nd_wf. cbn [nd_data nd_shape]. rewrite map_length. apply (rp_wf H).
    + now rewrite Hs.
    + intros _. apply Forall_map, Forall_forall. reflexivity.
    + rewrite flat_1, map_map. apply map_ext. intros z. unfold torch3_modulus_rotation_at. change (fst (RtoC ?r)) with r. now rewrite sq_Cmod.
Qed.
(** Averages: single precision whatever the input. *)
Definition av (P : nat) (x : nd C) (t : tensor) : Prop := TorchRel.plain F32 2 x t /\ nd_shape x = [B; P].
Lemma integrals_sim powers x t : powers <> [] -> R4 1 x t -> sim st (av (length powers)) (np3_integrals x powers) (t3_integrals t powers).
Proof.
  intros Hp H. destruct (R4_vols _ _ _ _ _ _ _ H) as (vols & -> & Hi & _ & Hr & ->). unfold t3_integrals. cbn [t_shape app t_data].
  replace (Nat.eqb (length powers) 0) with false by (destruct powers; [congruence|reflexivity]). rewrite andb_true_r.
  destruct (Nat.eqb_spec B 0) as [E|E].
  - unfold np3_integrals. cbn [of_vols nd_shape]. rewrite (proj2 (Nat.eqb_eq B 0) E). cbn [raise_if bind]. apply sim_shape_err.
  - cbn [dt Nat.eqb]. rewrite np3_integrals_of by (assumption || lia). cbn [raise_if bind]. apply sim_ok. split; [|reflexivity].
    assert (Hlen : length vols = B) by (rewrite (proj1 Hi); cbn; lia).
    constructor; cbn [of_rows nd_shape nd_dtype nd_data t_dtype t_shape t_data app]; try reflexivity.
    + unfold nd_wf, of_rows. cbn [nd_data nd_shape app]. replace (prod [B; length powers]) with (B * length powers) by (cbn; lia). rewrite <- Hlen. clear.
      induction vols as [|v vols IH]; [reflexivity|]. cbn [map concat length]. rewrite app_length, IH. unfold moments. rewrite map_length. lia.
    + apply Forall_concat, Forall_map, Forall_forall. intros v _. unfold moments. apply Forall_map, Forall_forall. intros q _. apply snd_integral.
    + replace (prod [M; N; D; 1]) with V by (cbn; lia). rewrite flat_1, map_chunks. match goal with |- context [map (map fst) ?l] => replace l with vols by (symmetry; exact (vols_chunks B M N D HM HN HD vols Hi)) end. rewrite concat_map, !map_map. f_equal. apply map_ext. intros v.
      unfold moments. rewrite map_map. apply map_ext. intros q. now rewrite fst_integral.
Qed.
Lemma stack3_sim P l l' L : Forall2 (av P) l l' -> sim st (TorchRel.plain F32 4) (np3_stack l L) (t3_stack l' L).
Proof.
  intros H. unfold np3_stack, t3_stack.
  assert (E1 : stack l 1 = stack l (-2)). { destruct H as [|x t l l' [Hx Hs] _]; [reflexivity|]. unfold stack. now rewrite Hs. }
  assert (E2 : t_stack l' 1 = t_stack l' (-2)). { destruct H as [|x t l l' [Hx Hs] _]; [reflexivity|]. unfold t_stack. rewrite (pl_shape Hx), Hs. reflexivity. }
  rewrite E1, E2. eapply sim_bind; [apply (stack_plain F32 st 2 (-2) l l' 1); [|reflexivity|reflexivity]|].
  - eapply Forall2_impl_in; [|exact H]. intros y u _ _ [Hy _]. exact Hy.
  - intros y u Hy. rewrite (pl_shape Hy). pose proof (pl_rank Hy) as Hk. destruct (nd_shape y) as [|b [|n [|q [|? ?]]]] eqn:Es; try discriminate Hk.
    destruct (L + 1 =? 0)%Z; [apply sim_err|]. destruct (L + 1 <? 0)%Z; [apply sim_shape_err|].
    exact (reshape2_sim F32 st 3 y u (b :: n / Z.to_nat (L + 1) :: Z.to_nat (L + 1) :: [q]) Hy).
Qed.

(** ** The core *)
(** The coefficients before stacking (scattering3d.py:24-77). *)
Definition coefs3d {X W} (be : backend3 X W) filters cov averaging L J mo x : res (list X) :=
  U_0_c <- b3_rfft be x ;;
  ds <- mapM (degree3 be filters cov averaging J mo U_0_c) (zrange 0 (L + 1)) ;;
  Ok (concat (zip_star (if (mo =? 2)%Z then map (fun q => fst q ++ snd q) ds else map fst ds))).
Lemma scattering3d_coefs {X W} (be : backend3 X W) filters cov averaging L J mo x :
  scattering3d be filters cov averaging L J mo x = (cs <- coefs3d be filters cov averaging L J mo x ;; b3_stack be cs L).
Proof.
  unfold scattering3d, coefs3d. destruct (b3_rfft be x); [|reflexivity]. cbn [bind]. destruct (mapM _ _); reflexivity.
Qed.
Section Core.
Variables (F : list (list (list (nd C)))) (F' : list (list (list tensor))) (cov : bool) (avg : nd C -> res (nd C)) (avg' : tensor -> res tensor) (AV : nd C -> tensor -> Prop).
Hypothesis (HF : Forall2 (Forall2 (Forall2 (crep 2 3))) F F') (Havg : forall x t, R4 1 x t -> sim st AV (avg x) (avg' t)).
Notation npb := numpy_backend3. Notation tb := torch_backend3.
Definition orel (m : option (nd C)) (m' : option tensor) : Prop := match m, m' with None, None => True | Some y, Some u => R4 1 y u | _, _ => False end.
Lemma rotation_loop_sim U U' ws ws' m m' : R4 2 U U' -> Forall2 (crep 2 3) ws ws' -> orel m m' -> sim st orel (rotation_loop npb U ws m) (rotation_loop tb U' ws' m').
Proof.
  intros HU Hw. revert m m'. induction Hw as [|w u ws ws' Hw _ IH]; intros m m' Hm; cbn [rotation_loop]; [now apply sim_ok|].
  eapply sim_bind; [apply cdgmm3_sim; eassumption|]. intros a a' Ha.
  eapply sim_bind; [apply ifft3_sim; eassumption|]. intros b b' Hb.
  eapply sim_bind; [apply rotation_sim; eassumption|]. intros c c' Hc. apply IH. exact Hc.
Qed.
Lemma wavelet_sim U U' l j : R4 2 U U' -> sim st (R4 1) (wavelet_modulus npb F cov U l j) (wavelet_modulus tb F' cov U' l j).
Proof.
  intros HU. unfold wavelet_modulus. eapply sim_bind; [apply sim_py_index, HF|]. intros fl fl' Hfl. eapply sim_bind; [apply sim_py_index, Hfl|]. intros ws ws' Hws.
  destruct cov.
  - eapply sim_bind; [apply (rotation_loop_sim U U' ws ws' None None); [exact HU|exact Hws|exact I]|]. intros [m|] [m'|] Hm; try contradiction; [now apply sim_ok|apply sim_err].
  - eapply sim_bind; [apply sim_py_index, Hws|]. intros w u Hw.
    eapply sim_bind; [apply cdgmm3_sim; eassumption|]. intros a a' Ha.
    eapply sim_bind; [apply ifft3_sim; eassumption|]. intros b b' Hb. now apply modulus3_sim.
Qed.
Lemma first3_sim J mo l U U' j : R4 2 U U' -> sim st (fun a b => AV (fst a) (fst b) /\ Forall2 AV (snd a) (snd b)) (first3 npb F cov avg J mo l U j) (first3 tb F' cov avg' J mo l U' j).
Proof.
  intros HU. unfold first3. eapply sim_bind; [apply wavelet_sim, HU|]. intros a a' Ha. eapply sim_bind; [apply Havg; eassumption|]. intros b b' Hb.
  destruct (1 <? mo)%Z; [|apply sim_ok; split; [exact Hb|constructor]].
  eapply sim_bind; [apply rfft3_sim; eassumption|]. intros c c' Hc.
  eapply sim_bind; [apply (sim_mapM st eq AV); [apply Forall2_same|]|].
  - intros j2 ? <-. unfold second3. eapply sim_bind; [apply wavelet_sim, Hc|]. intros e e' He. now apply Havg.
  - intros s s' Hs. apply sim_ok. now split.
Qed.
Definition prel (a : list (nd C) * list (nd C)) (b : list tensor * list tensor) : Prop := Forall2 AV (fst a) (fst b) /\ Forall2 AV (snd a) (snd b).
Lemma degree3_sim J mo U U' l : R4 2 U U' -> sim st prel (degree3 npb F cov avg J mo U l) (degree3 tb F' cov avg' J mo U' l).
Proof.
  intros HU. unfold degree3. eapply sim_bind; [apply (sim_mapM st eq (fun a b => AV (fst a) (fst b) /\ Forall2 AV (snd a) (snd b))); [apply Forall2_same|]|].
  - intros j ? <-. now apply first3_sim.
  - intros ps ps' Hps. apply sim_ok. split; cbn [fst snd].
    + clear - Hps. induction Hps as [|x y ps ps' [Hx _] _ IH]; constructor; assumption.
    + clear - Hps. induction Hps as [|x y ps ps' [_ Hx] _ IH]; [constructor|]. cbn [map concat]. now apply Forall2_app.
Qed.
Lemma zip_star_rel {A A'} (Rl : A -> A' -> Prop) r r' : Forall2 (Forall2 Rl) r r' -> Forall2 (Forall2 Rl) (zip_star r) (zip_star r').
Proof.
  intros H. unfold zip_star. destruct H as [|x y r r' Hx H]; [constructor|].
  replace (fold_right Nat.min (length y) (map (@length A') r')) with (fold_right Nat.min (length x) (map (@length A) r)).
  2:{ rewrite (Forall2_len _ _ _ Hx). f_equal. clear - H. induction H as [|a b r r' Ha _ IH]; [reflexivity|]. cbn [map]. now rewrite IH, (Forall2_len _ _ _ Ha). }
  assert (G : Forall2 (Forall2 Rl) (x :: r) (y :: r')) by now constructor. generalize (x :: r) (y :: r') G. clear. intros a b G.
  generalize (seq 0 (fold_right Nat.min (length x) (map (@length A) r))). intros is_. induction is_ as [|i is_ IH]; constructor; [|exact IH].
  clear IH. induction G as [|u v a b Hu _ IH]; [constructor|]. cbn [map concat]. apply Forall2_app; [|exact IH].
  clear IH. revert i. induction Hu as [|p q u v Hp _ IH]; intros [|i]; cbn [nth_error]; try constructor; [exact Hp|constructor|apply IH].
Qed.
Lemma coefs3_sim L J mo x t : R4 1 x t -> sim st (Forall2 AV) (coefs3d npb F cov avg L J mo x) (coefs3d tb F' cov avg' L J mo t).
Proof.
  intros H. unfold coefs3d. eapply sim_bind; [apply rfft3_sim; eassumption|]. intros U U' HU.
  eapply sim_bind; [apply (sim_mapM st eq prel); [apply Forall2_same|]|]. { intros l ? <-. now apply degree3_sim. }
  intros ds ds' Hd. apply sim_ok.
  assert (G : Forall2 (Forall2 AV) (if (mo =? 2)%Z then map (fun q => fst q ++ snd q) ds else map fst ds) (if (mo =? 2)%Z then map (fun q => fst q ++ snd q) ds' else map fst ds')).
  { clear - Hd. destruct (mo =? 2)%Z; induction Hd as [|a b ds ds' [H1 H2] _ IH]; constructor; try assumption. now apply Forall2_app. }
  apply zip_star_rel in G. clear - G. induction G as [|a b r r' Ha _ IH]; [constructor|]. cbn [concat]. now apply Forall2_app.
Qed.
End Core.
Lemma scattering3_sim F F' cov powers L J mo x t : Forall2 (Forall2 (Forall2 (crep 2 3))) F F' -> powers <> [] -> R4 1 x t ->
  sim st (TorchRel.plain F32 4) (scattering3d numpy_backend3 F cov (fun u => np3_integrals u powers) L J mo x)
    (scattering3d torch_backend3 F' cov (fun u => t3_integrals u powers) L J mo t).
Proof.
  intros HF Hp H. rewrite !scattering3d_coefs. eapply sim_bind; [apply (coefs3_sim F F' cov _ _ (av (length powers)) HF); [|exact H]|].
  - intros y u Hy. now apply integrals_sim.
  - intros cs cs' Hcs. now apply (stack3_sim (length powers)).
Qed.
End Sizes.
End Sim.

(** ** The sizes *)
Lemma check3_sizes p s : check3 p s = Ok tt -> exists pre M N D, s = pre ++ [M; N; D] /\ Z.of_nat M = h_M p /\ Z.of_nat N = h_N p /\ Z.of_nat D = h_O p.
Proof.
  unfold check3, Backend3d.split_last3. destruct (rev s) as [|o [|n [|m r]]] eqn:E; try discriminate. intros H. apply raise_if_Ok in H.
  apply orb_false_iff in H as [H H3]. apply orb_false_iff in H as [H1 H2]. apply negb_false_iff, Z.eqb_eq in H1, H2, H3.
  exists (rev r), m, n, o. split; [|auto]. rewrite <- (rev_involutive s), E. cbn [rev]. now rewrite <- !app_assoc.
Qed.
Lemma batch_signal3 (pre : list nat) M N D : firstn (length (pre ++ [M; N; D]) - 3) (pre ++ [M; N; D]) = pre /\ skipn (length (pre ++ [M; N; D]) - 3) (pre ++ [M; N; D]) = [M; N; D].
Proof.
  rewrite app_length. cbn [length]. replace (length pre + 3 - 3) with (length pre) by lia.
  split; [rewrite firstn_app, Nat.sub_diag, firstn_all; cbn; apply app_nil_r|rewrite skipn_app, Nat.sub_diag, skipn_all; reflexivity].
Qed.
(** reshape((-1,) + signal_shape + (1,)). *)
Lemma reshape_infer3_sim d st k x t M N D : plain d k x t ->
  sim st (fun y u => (0 < M /\ 0 < N /\ 0 < D) /\ exists B, R4 d 1 B M N D y u) (reshape_infer [M; N; D] x) (t2_reshape_infer ([M; N; D] ++ [1]) (mk_t (t_dtype t) (t_shape t) (t_data t) true)).
Proof.
  intros H. unfold reshape_infer, t2_reshape_infer. cbn [t_shape t_dtype t_data t_contig]. rewrite (pl_shape H). replace (prod ([M; N; D] ++ [1])) with (prod [M; N; D]) by (cbn; lia).
  destruct (Nat.eqb_spec (prod [M; N; D]) 0) as [E0|E0]; [apply sim_shape_err|].
  destruct (Nat.eqb_spec (prod (nd_shape x) mod prod [M; N; D]) 0) as [E|E]; [|apply sim_shape_err].
  apply sim_ok. split; [cbn in E0; nia|]. exists (prod (nd_shape x) / prod [M; N; D]). split; [split; [|reflexivity]|reflexivity].
  constructor; cbn [nd_shape nd_dtype nd_data t_dtype t_shape t_data]; try reflexivity; try now left.
  - unfold nd_wf. cbn [nd_data nd_shape]. rewrite (pl_wf H). change (prod (prod (nd_shape x) / prod [M; N; D] :: [M; N; D])) with (prod (nd_shape x) / prod [M; N; D] * prod [M; N; D]).
    pose proof (Nat.div_mod (prod (nd_shape x)) (prod [M; N; D])) as G. nia.
  - apply (pl_dt H).
  - intros _. apply (pl_real H).
  - apply (pl_dtype H).
  - rewrite flat_1. apply (pl_data H).
Qed.
