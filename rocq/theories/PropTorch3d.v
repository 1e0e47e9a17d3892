(** C84: the PyTorch frontend computes the same 3-D transform as the NumPy one. *)
From Coq Require Import String Reals ZArith List Bool Arith Lia Lra.
From Coquelicot Require Import Complex.
From Verif Require Import Base BaseProofs NdArray Backend ComplexOps NdProofs Backend2d Backend3d Core3d FilterBank3d Frontend3d Dft3 Rows3d Eval3d PropScat3d
  Torch1d TorchRel TorchSim TorchStack TorchModule TorchModuleProofs TorchFront PropTorchModule TorchConstructed PropTorch Torch2d Torch2dRel PropTorch2d Torch3d Torch3dRel.
Import ListNotations.
Local Open Scope nat_scope.
Local Open Scope res_scope.

(** ** The filters as torch buffers *)
Section Pack.
Variables (M N D : nat).
Definition lev3_ok (w : nd C) : Prop := nd_shape w = [M; N; D] /\ nd_dtype w = Complex /\ nd_wf w.
Definition row3_ok (b : nat) (ws : list (nd C)) : Prop := length ws = b /\ List.Forall lev3_ok ws.
Definition deg3_ok (fl : list (list (nd C))) : Prop := exists b, 0 < b /\ List.Forall (row3_ok b) fl.
Definition slice3 (d : fdtype) (w : nd C) : tensor := mk_t d [M; N; D; 2] (to_pairs (nd_data w)) true.
Lemma slice3_rep d w : lev3_ok w -> crep d 2 3 w (slice3 d w).
Proof.
  intros (H1 & H2 & H3). split; [|reflexivity]. constructor; cbn [slice3 t_dtype t_shape t_data]; try assumption; try reflexivity.
  - now rewrite H1.
  - now right.
  - discriminate.
  - now rewrite H1.
Qed.
Lemma to_pairs_length l : length (to_pairs l) = 2 * length l.
Proof. rewrite <- flat_2. induction l as [|z l IH]; [reflexivity|]. unfold flat in *. cbn [flat_map]. rewrite app_length, IH. cbn. lia. Qed.
Lemma pairs3_length w : lev3_ok w -> length (to_pairs_nd w) = prod [M; N; D; 2].
Proof. intros (H1 & _ & H3). unfold to_pairs_nd. rewrite to_pairs_length, H3, H1. cbn. lia. Qed.
Lemma row3_length b ws : row3_ok b ws -> length (concat (map to_pairs_nd ws)) = b * prod [M; N; D; 2].
Proof.
  intros [H1 H2]. rewrite <- H1. clear H1. induction H2 as [|w ws Hw _ IH]; [reflexivity|]. cbn [map concat length]. rewrite app_length, IH, (pairs3_length w Hw). lia.
Qed.
Lemma unpack_pack d fl : deg3_ok fl -> unpack3 (cast d (pack3 fl)) = map (map (slice3 d)) fl.
Proof.
  intros (b & Hb & H). destruct fl as [|ws0 fl']; [reflexivity|].
  assert (E0 : exists w ws, ws0 = w :: ws /\ nd_shape w = [M; N; D] /\ length ws0 = b).
  { inversion H as [|? ? [H1 H2] _]; subst. destruct ws0 as [|w ws]; [cbn in *; lia|]. exists w, ws. split; [reflexivity|]. split; [|reflexivity]. inversion H2 as [|? ? H3 _]; subst. apply H3. }
  destruct E0 as (w & ws & E1 & E2 & E3). unfold unpack3, cast, pack3. cbn [t_shape t_dtype t_data t_contig hd]. rewrite E3, E1, E2, <- E1. cbn [app].
  change (prod ([M; N; D] ++ [2])) with (prod [M; N; D; 2]). set (fl := ws0 :: fl') in *.
  replace (length fl) with (length (map (fun ws => concat (map to_pairs_nd ws)) fl)) by apply map_length.
  rewrite chunks_concat; [|apply Forall_map; eapply Forall_impl; [|exact H]; intros; now apply row3_length].
  rewrite map_map. apply map_ext_in. intros vs Hvs. rewrite Forall_forall in H. destruct (H _ Hvs) as [L1 L2].
  replace b with (length (map to_pairs_nd vs)) by (rewrite map_length; exact L1).
  rewrite chunks_concat; [|apply Forall_map; eapply Forall_impl; [|exact L2]; intros; now apply pairs3_length].
  rewrite map_map. reflexivity.
Qed.
Lemma slices_rep d F : List.Forall deg3_ok F -> Forall2 (Forall2 (Forall2 (crep d 2 3))) F (map (map (map (slice3 d))) F).
Proof.
  intros H. induction H as [|fl F (b & _ & Hfl) _ IH]; cbn [map]; constructor; [|exact IH]. clear IH.
  induction Hfl as [|ws fl [_ Hws] _ IH]; cbn [map]; constructor; [|exact IH]. clear IH.
  induction Hws as [|w ws Hw _ IH]; cbn [map]; constructor; [now apply slice3_rep|exact IH].
Qed.
End Pack.
Lemma bank_deg_ok sph M N D J L s0 : List.Forall (deg3_ok M N D) (solid_harmonic_filter_bank sph M N D J L s0).
Proof.
  unfold solid_harmonic_filter_bank. apply Forall_map, Forall_forall. intros l _. exists (2 * Z.to_nat l + 1). split; [lia|].
  apply Forall_map, Forall_forall. intros j _. unfold solid_harmonic_3d. split; [now rewrite map_length, seq_length|].
  apply Forall_map, Forall_forall. intros i _. split; [reflexivity|]. split; [reflexivity|]. unfold nd_wf. cbn [nd_data nd_shape]. rewrite vol_length. cbn. lia.
Qed.
Lemma new3_inv sph p s : new3 sph p = Ok s -> t_args s = p /\ List.Forall (deg3_ok (Z.to_nat (h_M p)) (Z.to_nat (h_N p)) (Z.to_nat (h_O p))) (t_filters s).
Proof.
  unfold new3. intros H. repeat match goal with H : context [if ?b then _ else _] |- _ => match type of b with bool => destruct b end; [discriminate|] end.
  injection H as <-. split; [reflexivity|]. apply bank_deg_ok.
Qed.

(** ** The history of a module *)
Lemma run_ops3_history p l : forall st os, exists h, (forall k v, follow h k v = casts l v) /\
  run_ops3 l (st, (p, os)) = ('(st, os) <- history load3d h st os ;; Ok (st, (p, os))).
Proof.
  induction l as [|[d|x] l IH]; intros st os.
  - exists []. split; reflexivity.
  - cbn [run_ops3 run_op3 op_event bind].
    set (ip := fun k => match sdict_get (st_bufs st) k with Ok o => fdtype_eqb (t_dtype (snd o)) d | Err _ => false end).
    destruct (IH (move (fun _ => cast d) ip st) os) as (h & H2 & H3). exists (Move (fun _ => cast d) ip :: h). split; [|exact H3].
    intros k v. unfold follow, casts in *. cbn [fold_left]. apply H2.
  - cbn [run_ops3 run_op3]. destruct (check3 p (t_shape x)).
    + destruct (load3d st os) as [os'|e] eqn:E.
      * destruct (IH st os') as (h & H2 & H3). exists (Call :: h). split; [exact H2|]. cbn [history]. rewrite E. exact H3.
      * destruct (IH st os) as (h & H2 & H3). exists (Call :: h). split; [exact H2|]. cbn [history]. rewrite E. reflexivity.
    + destruct (IH st os) as (h & H2 & H3). exists h. auto.
Qed.
Lemma torch3d_filters sph p s l : new3 sph p = Ok s -> exists m st os0 os, HarmonicScatteringTorch3D sph p = Ok m /\ run_ops3 l m = Ok (st, (p, os0)) /\
  load3d st os0 = Ok os /\ map (fun o => unpack3 (snd o)) os = map (map (map (slice3 (Z.to_nat (h_M p)) (Z.to_nat (h_N p)) (Z.to_nat (h_O p)) (dtype_after l)))) (t_filters s).
Proof.
  intros H. pose proof (new3_inv _ _ _ H) as [_ HF]. unfold HarmonicScatteringTorch3D. rewrite H. cbn [bind].
  destruct (register3d (fun t : tensor => t) (map pack3 (t_filters s)) (pack_gaussian (t_gaussian_filters s)) empty_store) as [[os g] st0] eqn:E.
  destruct (run_ops3_history p l st0 os) as (h & Hf & Hr).
  destruct (C51_filters_follow_3d _ _ _ _ _ _ h E) as (_ & st1 & l1 & l2 & Eh & El & _ & _ & _ & V).
  exists (st0, (p, os)), st1, l1, l2. split; [reflexivity|]. split; [rewrite Hr, Eh; reflexivity|]. split; [exact El|].
  rewrite <- (map_map snd unpack3 l2), V, map_map.
  rewrite (map_ext _ (fun ka : nat * tensor => unpack3 (cast (fold_left (fun d o => match o with To d' => d' | Forward _ => d end) l (t_dtype (snd ka))) (snd ka)))) by (intros ka; now rewrite Hf, casts_after).
  rewrite <- (map_map snd (fun v => unpack3 (cast (fold_left (fun d o => match o with To d' => d' | Forward _ => d end) l (t_dtype v)) v))).
  replace (map snd (enumerate (map pack3 (t_filters s)))) with (map pack3 (t_filters s)).
  2:{ symmetry. apply enum_from_snd. }
  rewrite map_map. apply map_ext_in. intros fl Hfl. rewrite Forall_forall in HF. apply unpack_pack, (HF fl Hfl).
Qed.

(** ** The theorems *)
(** The operations on batches of [B] volumes of [M x N x D] voxels.  [R4 d c B M N D x t]: an array of shape [B; M; N; D], real for
    [c = 1], complex for [c = 2], and a contiguous tensor of dtype [d] with a trailing axis of length [c] holding the same numbers. *)
Theorem C84_operations : forall d B M N D x t, 0 < M -> 0 < N -> 0 < D ->
  (R4 d 1 B M N D x t -> sim true (R4 d 2 B M N D) (np3_rfft x) (t3_rfft t)) /\
  (R4 d 2 B M N D x t -> sim true (R4 d 2 B M N D) (np3_ifft x) (t3_ifft t)) /\
  (R4 d 2 B M N D x t -> sim true (R4 d 1 B M N D) (np_modulus complex_ops x) (t_modulus t)) /\
  (forall w u, R4 d 2 B M N D x t -> crep d 2 3 w u -> sim true (R4 d 2 B M N D) (np_cdgmm complex_ops x w) (t_cdgmm t u)) /\
  (R4 d 2 B M N D x t -> sim true (R4 d 1 B M N D) (np3_modulus_rotation x None) (t3_modulus_rotation t None)) /\
  (forall y u, R4 d 2 B M N D x t -> R4 d 1 B M N D y u -> sim true (R4 d 1 B M N D) (np3_modulus_rotation x (Some y)) (t3_modulus_rotation t (Some u))) /\
  (forall powers, powers <> [] -> R4 d 1 B M N D x t ->
     sim true (fun y u => plain F32 2 y u /\ nd_shape y = [B; length powers]) (np3_integrals x powers) (t3_integrals t powers)) /\
  (forall P l l' L, Forall2 (fun y u => plain F32 2 y u /\ nd_shape y = [B; P]) l l' -> sim true (plain F32 4) (np3_stack l L) (t3_stack l' L)).
Proof.
  intros d B M N D x t HM HN HD. split; [intros H; now apply rfft3_sim|]. split; [intros H; now apply ifft3_sim|]. split; [intros H; now apply modulus3_sim|].
  split; [intros w u H1 H2; now apply cdgmm3_sim|]. split; [intros H; now apply rotation_sim|]. split; [intros y u H1 H2; now apply rotation_sim|].
  split; [intros q Hq H; now apply (integrals_sim d true B M N D)|]. intros P l l' L H. now apply (stack3_sim true B P).
Qed.
Print Assumptions C84_operations.

(** The Gaussian filters, registered under a name of their own: one tensor, real and imaginary parts along the last axis. *)
Lemma sdict_get_set {V} k (v : V) d : sdict_get (sdict_set k v d) k = Ok v.
Proof.
  induction d as [|[k' v'] d IH]; cbn [sdict_set sdict_get]; [now rewrite String.eqb_refl|].
  destruct (String.eqb k k') eqn:E; cbn [sdict_get]; now rewrite E.
Qed.
Theorem C84_gaussian_buffer : forall sph p, valid3 p -> exists s st q os id t, new3 sph p = Ok s /\ HarmonicScatteringTorch3D sph p = Ok (st, (q, os)) /\
  sdict_get (st_bufs st) "tensor_gaussian_filter" = Ok (id, t) /\ t_dtype t = F32 /\
  t_shape t = [Z.to_nat (h_J p) + 2; Z.to_nat (h_M p); Z.to_nat (h_N p); Z.to_nat (h_O p); 2] /\ length (t_data t) = prod (t_shape t) /\
  of_pairs (t_data t) = concat (map (@nd_data C) (t_gaussian_filters s)).
Proof.
  intros sph p Hv. pose proof (new3_ok sph p Hv) as Hs. assert (HJ : (0 <= h_J p)%Z) by apply Hv.
  unfold HarmonicScatteringTorch3D. rewrite Hs. cbn [bind t_filters t_gaussian_filters].
  set (gs := gaussian_filter_bank _ _ _ _ _). unfold register3d. destruct (register_levels _ _ _ _) as [[os n] st].
  do 6 eexists. split; [reflexivity|]. split; [reflexivity|]. split; [apply sdict_get_set|]. split; [reflexivity|].
  assert (Lg : length gs = Z.to_nat (h_J p) + 2).
  { unfold gs, gaussian_filter_bank. rewrite map_length, zrange_length. lia. }
  assert (Hg : forall w, In w gs -> nd_shape w = [Z.to_nat (h_M p); Z.to_nat (h_N p); Z.to_nat (h_O p)] /\
    length (nd_data w) = prod (nd_shape w) /\ forall z, In z (nd_data w) -> snd z = 0%R).
  { unfold gs, gaussian_filter_bank. intros w Hw. apply in_map_iff in Hw as (j & <- & _). cbn [nd_shape nd_data]. split; [reflexivity|].
    unfold gaussian_3d. split; [rewrite vol_length; cbn; lia|]. intros z Hz. unfold vol in Hz. apply in_map_iff in Hz as (i & <- & _). reflexivity. }
  clearbody gs. unfold pack_gaussian. cbn [t_shape t_data t_gaussian_filters].
  assert (Es : match gs with w :: _ => nd_shape w | [] => [] end = [Z.to_nat (h_M p); Z.to_nat (h_N p); Z.to_nat (h_O p)]).
  { destruct gs as [|w gs]; [cbn in Lg; lia|]. apply Hg. now left. }
  rewrite Es, Lg. split; [reflexivity|]. split.
  - rewrite <- Lg. clear - Hg. induction gs as [|w gs IH]; [reflexivity|]. cbn [map concat length app] in *. rewrite app_length.
    rewrite IH by (intros; apply Hg; now right). destruct (Hg w (or_introl eq_refl)) as (E & L & _).
    assert (F : length (flat_map (fun z : C => [fst z; 0%R]) (nd_data w)) = 2 * length (nd_data w)).
    { clear. induction (nd_data w) as [|z l IH]; [reflexivity|]. cbn [flat_map app length]. rewrite IH. lia. }
    rewrite F, L, E. cbn. lia.
  - clear - Hg. induction gs as [|w gs IH]; [reflexivity|]. cbn [map concat]. rewrite <- IH by (intros; apply Hg; now right).
    destruct (Hg w (or_introl eq_refl)) as (_ & _ & Hz). revert Hz. generalize (nd_data w). intros l. induction l as [|z l IHl]; intros Hz; [reflexivity|].
    cbn [flat_map app of_pairs]. rewrite IHl by (intros; apply Hz; now right). destruct z as [a b]. specialize (Hz (a, b) (or_introl eq_refl)). cbn in *. now subst b.
Qed.
Print Assumptions C84_gaussian_buffer.

(** The constructors raise the same exceptions. *)
Theorem C84_constructor : forall sph p e, new3 sph p = Err e <-> HarmonicScatteringTorch3D sph p = Err e.
Proof.
  intros sph p e. unfold HarmonicScatteringTorch3D. destruct (new3 sph p) as [s|e']; cbn [bind].
  - destruct (register3d _ _ _ _) as [[os g] st]. split; discriminate.
  - split; intros E; injection E as ->; reflexivity.
Qed.
Print Assumptions C84_constructor.

Lemma forward3d_sim p F F' st os0 os k x t d : t_args F = p -> load3d st os0 = Ok os -> map (fun o => unpack3 (snd o)) os = F' ->
  Forall2 (Forall2 (Forall2 (crep d 2 3))) (t_filters F) F' -> h_method p = "integral"%string -> h_integral_powers p <> [] -> plain d k x t ->
  sim true (plain F32 k) (numpy_scattering3 F x) (forward3d (st, (p, os0)) t).
Proof.
  intros Ha Hl HF' HF Hm Hq Hx. unfold numpy_scattering3, forward3d. rewrite Ha, (pl_shape Hx). destruct (check3 p (nd_shape x)) as [[]|e] eqn:Ec; cbn [bind]; [|apply sim_err].
  destruct (check3_sizes _ _ Ec) as (pre & M & N & D & Es & _ & _ & _). unfold run3. rewrite Ha. cbn [t_shape t_dtype t_data]. rewrite Es.
  destruct (batch_signal3 pre M N D) as [B1 B2]. rewrite B1, B2. cbn [b3_reshape_infer numpy_backend3].
  pose proof (reshape_infer3_sim d true k x t M N D Hx) as G. rewrite (pl_shape Hx), Es in G.
  eapply sim_bind; [exact G|]. clear G. intros y u [(HM & HN & HD) (B & Hy)].
  rewrite Hl. cbn [bind]. rewrite Hm. change (negb ("integral" =? "integral")%string) with false. cbn [raise_if bind]. rewrite HF'.
  eapply sim_bind; [apply (scattering3_sim d true B M N D HM HN HD); [exact HF|exact Hq|exact Hy]|]. intros z z' Hz.
  cbn [b3_shape b3_reshape numpy_backend3]. rewrite (pl_shape Hz).
  replace k with (length (pre ++ skipn 1 (nd_shape z))); [now apply (reshape2_sim F32 true 4)|].
  rewrite app_length, skipn_length, (pl_rank Hz), <- (pl_rank Hx), Es, app_length. reflexivity.
Qed.

(** For every configuration accepted by the constructor with the method "integral" and at least one integral power, and every sequence of
    casts and calls of the module, a call on a tensor of the dtype of the module, contiguous or not, returns the coefficients that NumPy
    returns on the same numbers, in single precision, and raises the corresponding exception when NumPy raises (the same, or RuntimeError
    for ValueError).  Missing from the full claim: another method, no integral power, tensors of another dtype (below). *)
Theorem C84_same_transform_partial : forall sph p s l k x t, new3 sph p = Ok s -> h_method p = "integral"%string -> h_integral_powers p <> [] ->
  plain (dtype_after l) k x t ->
  exists m m', HarmonicScatteringTorch3D sph p = Ok m /\ run_ops3 l m = Ok m' /\
    match numpy_scattering3 s x with
    | Ok y => exists y', forward3d m' t = Ok y' /\ plain F32 k y y'
    | Err e => exists e', forward3d m' t = Err e' /\ (e' = e \/ e = ValueError /\ e' = RuntimeError)
    end.
Proof.
  intros sph p s l k x t Hs Hm Hq Hx. destruct (torch3d_filters sph p s l Hs) as (m & st & os0 & os & E1 & E2 & E3 & E4).
  destruct (new3_inv _ _ _ Hs) as [Ha HF]. exists m, (st, (p, os0)). split; [exact E1|]. split; [exact E2|].
  pose proof (forward3d_sim p s _ st os0 os k x t _ Ha E3 E4 (slices_rep _ _ _ (dtype_after l) _ HF) Hm Hq Hx) as G.
  destruct (numpy_scattering3 s x); [exact G|]. destruct (G eq_refl) as (e' & H1 & [H2|H2]); exists e'; auto.
Qed.
Print Assumptions C84_same_transform_partial.

(** A tensor of another dtype than the module's raises TypeError where NumPy returns. *)
Lemma cdgmm3_mismatch d d' B M N D x t w u y : 0 < M -> 0 < N -> 0 < D -> R4 d' 2 B M N D x t -> crep d 2 3 w u -> d <> d' -> np_cdgmm complex_ops x w = Ok y -> t_cdgmm t u = Err TypeError.
Proof.
  intros HM HN HD Hx Hw Hd E.
  assert (Hw' : crep d' 2 3 w (cast d' u)). { destruct Hw as [[] C]. split; [|exact C]. constructor; auto. }
  pose proof (cdgmm3_sim d' true B M N D HM HN HD x t w (cast d' u) Hx Hw') as G. rewrite E in G. destruct G as (v & G & _). revert G. unfold t_cdgmm, cast.
  cbn [t_shape t_dtype t_data t_contig].
  destruct (split_last (t_shape u)) as [[sB cB]|]; [|discriminate]. cbn [bind].
  assert (F : (if Nat.eqb cB 1 then t_contiguous_check (mk_t d' (t_shape u) (t_data u) (t_contig u)) else _ <- t_complex_check (mk_t d' (t_shape u) (t_data u) (t_contig u)) ;; t_contiguous_check (mk_t d' (t_shape u) (t_data u) (t_contig u))) =
    (if Nat.eqb cB 1 then t_contiguous_check u else _ <- t_complex_check u ;; t_contiguous_check u)) by (intros; destruct u; reflexivity).
  rewrite F. destruct (if Nat.eqb cB 1 then _ else _); [|discriminate]. cbn [bind].
  destruct (t_complex_check t); [|discriminate]. cbn [bind]. destruct (t_contiguous_check t); [|discriminate]. cbn [bind].
  destruct (split_last (t_shape t)) as [[sA cA]|]; [|discriminate]. cbn [bind]. destruct (list_eq_dec _ _ _); [|discriminate].
  destruct Hx as [[Hx _] _], Hw as [Hw _]. rewrite (rp_dtype Hx), (rp_dtype Hw). destruct d, d'; try congruence; reflexivity.
Qed.
Lemma zrange_cons a b : (a < b)%Z -> exists r, zrange a b = a :: r.
Proof.
  intros H. unfold zrange. destruct (Z.to_nat (b - a)) as [|n] eqn:E; [lia|]. cbn [seq map]. rewrite Z.add_0_r. eauto.
Qed.
Lemma zrange_nil a b : (b <= a)%Z -> zrange a b = [].
Proof. intros H. unfold zrange. replace (Z.to_nat (b - a)) with 0 by lia. reflexivity. Qed.
Lemma coefs3_nil {X W} (be : backend3 X W) F cov avg L J mo x cs : (L < 0 \/ J < 0)%Z -> coefs3d be F cov avg L J mo x = Ok cs -> cs = [].
Proof.
  intros H E. unfold coefs3d in E. inv_bind E. inv_bind E. injection E as <-. destruct (Z.ltb_spec L 0).
  - rewrite zrange_nil in E1 by lia. injection E1 as <-. now destruct (mo =? 2)%Z.
  - assert (G : v0 = map (fun _ => ([], [])) (zrange 0 (L + 1))).
    { unfold degree3 in E1. rewrite (zrange_nil 0 (J + 1)) in E1 by lia. cbn [mapM bind map concat] in E1. clear - E1. revert v0 E1.
      induction (zrange 0 (L + 1)) as [|l r IH]; intros v0 E1; cbn [mapM bind] in E1; [now injection E1 as <-|]. inv_bind E1. injection E1 as <-. cbn [map]. f_equal. now apply IH. }
    subst v0. destruct (zrange 0 (L + 1)) as [|l r]; [now destruct (mo =? 2)%Z|]. destruct (mo =? 2)%Z; cbn [map fst snd app zip_star length]; rewrite ?map_map; cbn [fst snd app length];
      replace (fold_right Nat.min 0 _) with 0; try reflexivity; clear; induction r; cbn; auto; rewrite <- IHr; lia.
Qed.
Lemma wavelet_mis d d' B M N D F F' cov U U' l j : 0 < M -> 0 < N -> 0 < D -> d <> d' -> Forall2 (Forall2 (Forall2 (crep d 2 3))) F F' -> R4 d' 2 B M N D U U' ->
  mis (wavelet_modulus numpy_backend3 F cov U l j) (wavelet_modulus torch_backend3 F' cov U' l j).
Proof.
  intros HM HN HD Hd HF HU. unfold wavelet_modulus. eapply mis_sim; [apply sim_py_index, HF|]. intros fl fl' Hfl. eapply mis_sim; [apply sim_py_index, Hfl|]. intros ws ws' Hws.
  assert (Hc : forall w u, crep d 2 3 w u -> mis (np_cdgmm complex_ops U w) (t_cdgmm U' u)).
  { intros w u Hw. destruct (np_cdgmm complex_ops U w) eqn:E; [|exact I]. exact (cdgmm3_mismatch d d' B M N D U U' w u _ HM HN HD HU Hw Hd E). }
  destruct cov.
  - destruct Hws as [|w u ws ws' Hw _]; [exact I|]. apply mis_bind. cbn [rotation_loop]. apply mis_bind. now apply Hc.
  - eapply mis_sim; [apply sim_py_index, Hws|]. intros w u Hw. apply mis_bind. now apply Hc.
Qed.
Lemma scattering3_mis d d' B M N D F F' cov powers L J mo x t : 0 < M -> 0 < N -> 0 < D -> d <> d' -> Forall2 (Forall2 (Forall2 (crep d 2 3))) F F' -> R4 d' 1 B M N D x t ->
  mis (scattering3d numpy_backend3 F cov (fun u => np3_integrals u powers) L J mo x) (scattering3d torch_backend3 F' cov (fun u => t3_integrals u powers) L J mo t).
Proof.
  intros HM HN HD Hd HF Hx. rewrite !scattering3d_coefs.
  assert (C : ((L < 0 \/ J < 0) \/ 0 <= L /\ 0 <= J)%Z) by lia. destruct C as [C|[HL HJ]].
  - destruct (coefs3d numpy_backend3 _ _ _ _ _ _ _) eqn:E; [|exact I]. apply (coefs3_nil _ _ _ _ _ _ _ _ _ C) in E. subst. exact I.
  - apply mis_bind. unfold coefs3d. eapply mis_sim; [apply (rfft3_sim d' true B M N D HM HN HD), Hx|]. intros U U' HU. apply mis_bind.
    destruct (zrange_cons 0 (L + 1)) as (r & ->); [lia|]. cbn [mapM]. apply mis_bind. unfold degree3. apply mis_bind.
    destruct (zrange_cons 0 (J + 1)) as (r' & ->); [lia|]. cbn [mapM]. apply mis_bind. unfold first3. apply mis_bind.
    now apply (wavelet_mis d d' B M N D).
Qed.
Theorem C84_dtype : forall sph p s l d k x t y, new3 sph p = Ok s -> h_method p = "integral"%string -> plain d k x t -> d <> dtype_after l ->
  numpy_scattering3 s x = Ok y ->
  exists m m', HarmonicScatteringTorch3D sph p = Ok m /\ run_ops3 l m = Ok m' /\ forward3d m' t = Err TypeError.
Proof.
  intros sph p s l d k x t y Hs Hm Hx Hd Hy. destruct (torch3d_filters sph p s l Hs) as (m & st & os0 & os & E1 & E2 & E3 & E4).
  destruct (new3_inv _ _ _ Hs) as [Ha HF]. exists m, (st, (p, os0)). split; [exact E1|]. split; [exact E2|].
  assert (G : mis (numpy_scattering3 s x) (forward3d (st, (p, os0)) t)); [|rewrite Hy in G; exact G].
  unfold numpy_scattering3, forward3d. rewrite Ha, (pl_shape Hx). destruct (check3 p (nd_shape x)) as [[]|e] eqn:Ec; cbn [bind]; [|exact I].
  destruct (check3_sizes _ _ Ec) as (pre & M & N & D & Es & _ & _ & _). unfold run3. rewrite Ha. cbn [t_shape t_dtype t_data]. rewrite Es.
  destruct (batch_signal3 pre M N D) as [B1 B2]. rewrite B1, B2. cbn [b3_reshape_infer numpy_backend3].
  pose proof (reshape_infer3_sim d true k x t M N D Hx) as G. rewrite (pl_shape Hx), Es in G.
  eapply mis_sim; [exact G|]. clear G. intros z u [(HM & HN & HD) (B & Hz)].
  rewrite E3. cbn [bind]. rewrite Hm. change (negb ("integral" =? "integral")%string) with false. cbn [raise_if bind]. rewrite E4. apply mis_bind.
  apply (scattering3_mis (dtype_after l) d B M N D); try assumption; [congruence|now apply slices_rep].
Qed.
Print Assumptions C84_dtype.

(** Another method: NumPy returns, torch raises ValueError. *)
Theorem C84_method_refuted : forall sph p l d k batch x t, valid3 p -> h_method p <> "integral"%string -> input3 p batch x -> plain d k x t ->
  exists s m m' y, new3 sph p = Ok s /\ HarmonicScatteringTorch3D sph p = Ok m /\ run_ops3 l m = Ok m' /\
    numpy_scattering3 s x = Ok y /\ forward3d m' t = Err ValueError.
Proof.
  intros sph p l d k batch x t Hv Hm Hx Ht. pose proof (new3_ok sph p Hv) as Hs. destruct (torch3d_filters sph p _ l Hs) as (m & st & os0 & os & E1 & E2 & E3 & _).
  eexists. exists m, (st, (p, os0)). eexists. split; [exact Hs|]. split; [exact E1|]. split; [exact E2|].
  split; [apply (runs3_of numpy_scattering3 p _ _ batch x); [now left|exact Hv|apply bank_ready|exact Hx]|].
  unfold forward3d. pose proof Hx as (_ & _ & Es & Hb). pose proof (valid3_sizes p Hv) as Hsz. pose proof Hsz as (_ & _ & _ & HM & HN & HD).
  rewrite (pl_shape Ht), Es, (check3_ok p _ _ _ batch Hsz). cbn [bind t_shape].
  destruct (batch_signal3 batch (Mx p) (Nx p) (Dx p)) as [B1 B2]. rewrite B2.
  pose proof (reshape_infer3_sim d true k x t (Mx p) (Nx p) (Dx p) Ht) as G. rewrite (pl_shape Ht), Es in G. unfold reshape_infer in G. rewrite Es in G.
  replace (prod (batch ++ [Mx p; Nx p; Dx p])) with (prod batch * prod [Mx p; Nx p; Dx p]) in G by (rewrite prod_app; reflexivity).
  assert (P : prod [Mx p; Nx p; Dx p] <> 0) by (cbn; nia). destruct (Nat.eqb_spec (prod [Mx p; Nx p; Dx p]) 0); [contradiction|].
  rewrite Nat.mod_mul in G by exact P. cbn [Nat.eqb] in G. destruct G as (u & -> & _). cbn [bind]. rewrite E3. cbn [bind].
  apply String.eqb_neq in Hm. rewrite Hm. reflexivity.
Qed.
Print Assumptions C84_method_refuted.

(** No integral power: NumPy raises ValueError, torch returns a tensor without entries. *)
Definition with_powers (q : list R) (p : params3) : params3 :=
  mk_params3 (h_J p) (h_M p) (h_N p) (h_O p) (h_L p) (h_sigma_0 p) (h_max_order p) (h_rotation_covariant p) (h_method p) q.
Definition empty_av (B : nat) (x : nd C) (t : tensor) : Prop := t = mk_t F32 [B; 0] [] true.
Lemma concat_nils {A B} (f : A -> list B) l : (forall a, f a = []) -> concat (map f l) = [].
Proof. intros H. induction l as [|a l IH]; [reflexivity|]. cbn. now rewrite H, IH. Qed.
Lemma stack3_empty B cs cs' L : cs <> [] -> Forall2 (empty_av B) cs cs' -> (0 <= L)%Z ->
  t3_stack cs' L = Ok (mk_t F32 [B; length cs' / Z.to_nat (L + 1); Z.to_nat (L + 1); 0] [] true).
Proof.
  intros Hne H HL. assert (E : List.Forall (fun t => t = mk_t F32 [B; 0] [] true) cs') by (clear - H; induction H; constructor; assumption).
  assert (Hn : cs' <> []) by (destruct H; congruence). unfold t3_stack.
  assert (S : t_stack cs' 1 = Ok (mk_t F32 [B; length cs'; 0] [] true)).
  { destruct cs' as [|t r]; [congruence|]. pose proof (Forall_inv E) as Ht. cbv beta in Ht. subst t. unfold t_stack. set (ts := _ :: r) in *. cbn [t_shape length].
    change ((if (1 <? 0)%Z then (1 + Z.of_nat 2 + 1)%Z else 1%Z)) with 1%Z. cbn [Z.ltb Z.compare Z.of_nat orb Pos.of_succ_nat Pos.succ Pos.compare Pos.compare_cont].
    replace (forallb _ ts) with true.
    2:{ symmetry. apply forallb_forall. intros y Hy. rewrite Forall_forall in E. rewrite (E y Hy). cbn [t_shape]. now destruct (list_eq_dec Nat.eq_dec [B; 0] [B; 0]). }
    change (Z.to_nat 1) with 1. cbn [firstn skipn app t_dtype]. do 2 f_equal. apply concat_nils. intros i. apply concat_nils. intros y. cbn. reflexivity. }
  rewrite S. cbn [bind t_shape]. destruct (Z.eqb_spec (L + 1) 0); [lia|]. destruct (Z.ltb_spec (L + 1) 0); [lia|]. unfold t2_reshape. cbn [t_shape t_dtype t_data t_contig].
  replace (prod [B; length cs' / Z.to_nat (L + 1); Z.to_nat (L + 1); 0]) with 0 by (cbn; lia). replace (prod [B; length cs'; 0]) with 0 by (cbn; lia). reflexivity.
Qed.
Theorem C84_powers_refuted : forall sph p l k batch x t, valid3 p -> h_method p = "integral"%string -> input3 p batch x -> plain (dtype_after l) k x t ->
  exists s m m' y n, new3 sph (with_powers [] p) = Ok s /\ HarmonicScatteringTorch3D sph (with_powers [] p) = Ok m /\ run_ops3 l m = Ok m' /\
    numpy_scattering3 s x = Err ValueError /\ forward3d m' t = Ok y /\ t_shape y = batch ++ [n; Z.to_nat (h_L p + 1); 0] /\ t_data y = [].
Proof.
  intros sph p l k batch x t Hv Hm Hx Ht.
  set (F := solid_harmonic_filter_bank sph (Mx p) (Nx p) (Dx p) (h_J p) (h_L p) (h_sigma_0 p)). set (g := gaussian_filter_bank (Mx p) (Nx p) (Dx p) (h_J p + 1) (h_sigma_0 p)).
  assert (Hs : new3 sph (with_powers [] p) = Ok (mk_scat3 (with_powers [] p) F g)).
  { pose proof (new3_ok sph p Hv) as E. unfold new3 in E |- *. cbn [with_powers h_M h_N h_O h_J h_L h_sigma_0].
    repeat match goal with H : context [if ?b then _ else _] |- _ => match type of b with bool => destruct b end; [discriminate|] end. reflexivity. }
  destruct (torch3d_filters sph _ _ l Hs) as (m & st & os0 & os & E1 & E2 & E3 & E4). destruct (new3_inv _ _ _ Hs) as [_ HF]. cbn [with_powers h_M h_N h_O t_filters] in HF, E4.
  pose proof Hx as (Hw & Hdt & Es & Hb). pose proof (valid3_sizes p Hv) as Hsz. pose proof Hsz as (_ & _ & _ & HM & HN & HD).
  pose proof Hv as (HJ & HL & _).
  (* the flattened input *)
  pose proof (reshape_infer3_sim (dtype_after l) false k x t (Mx p) (Nx p) (Dx p) Ht) as G. rewrite (pl_shape Ht), Es in G.
  destruct (batch_signal3 batch (Mx p) (Nx p) (Dx p)) as [B1 B2].
  assert (Er : exists y, reshape_infer [Mx p; Nx p; Dx p] x = Ok y /\ nd_shape y = prod batch :: [Mx p; Nx p; Dx p]).
  { unfold reshape_infer. rewrite Es. replace (prod (batch ++ [Mx p; Nx p; Dx p])) with (prod batch * prod [Mx p; Nx p; Dx p]) by (rewrite prod_app; reflexivity).
    assert (P : prod [Mx p; Nx p; Dx p] <> 0) by (cbn; nia). destruct (Nat.eqb_spec (prod [Mx p; Nx p; Dx p]) 0); [contradiction|].
    rewrite Nat.mod_mul, Nat.div_mul by exact P. cbn [Nat.eqb]. eexists. split; reflexivity. }
  destruct Er as (y & Ey & Sy). rewrite Ey in G. destruct G as (u & Eu & _ & B & Hy). assert (HB : 0 < B) by (destruct Hy as [_ Hy]; congruence).
  assert (HBb : B = prod batch) by (destruct Hy as [_ Hy]; congruence).
  (* NumPy with one power *)
  set (p1 := with_powers [1%R] p). assert (Hv1 : valid3 p1).
  { destruct Hv as (V1 & V2 & V3 & V4 & V5 & V6 & _). unfold valid3, p1. cbn [with_powers h_M h_N h_O h_J h_L h_sigma_0 h_integral_powers]. repeat split; try assumption. discriminate. }
  assert (R1 : numpy_scattering3 (mk_scat3 p1 F g) x = Ok (out3 p1 F (Mx p) (Nx p) (Dx p) batch x)) by (apply (runs3_of numpy_scattering3 p1); [now left|exact Hv1|apply bank_ready|exact Hx]).
  unfold numpy_scattering3, run3 in R1. cbn [t_args t_filters] in R1. rewrite Es in R1. assert (Ck : check3 p (batch ++ [Mx p; Nx p; Dx p]) = Ok tt) by exact (check3_ok p _ _ _ batch Hsz).
  assert (Ck1 : check3 p1 (batch ++ [Mx p; Nx p; Dx p]) = Ok tt) by exact Ck. rewrite Ck1 in R1. cbn [bind] in R1. rewrite B2 in R1. cbn [b3_reshape_infer numpy_backend3] in R1. rewrite Ey in R1. cbn [bind] in R1.
  rewrite scattering3d_coefs in R1. inv_bind R1. inv_bind E. clear R1. rename v0 into cs. rename E0 into Ecs.
  assert (Hcs : cs <> []) by (intros ->; discriminate E).
  pose proof (coefs3_sim (dtype_after l) false B (Mx p) (Nx p) (Dx p) HM HN HD F _ (h_rotation_covariant p) (fun u => b3_compute_integrals numpy_backend3 u (h_integral_powers p1)) (fun u => t3_integrals u []) (empty_av B) (slices_rep _ _ _ (dtype_after l) _ HF)) as G.
  assert (Ha : forall y u, R4 (dtype_after l) 1 B (Mx p) (Nx p) (Dx p) y u -> sim false (empty_av B) (b3_compute_integrals numpy_backend3 y (h_integral_powers p1)) (t3_integrals u [])).
  { intros y0 u0 H0. destruct (b3_compute_integrals _ _ _); [|discriminate]. eexists. split; [|reflexivity]. destruct H0 as [[H0 _] H1]. unfold t3_integrals. rewrite (rp_shape H0), H1. cbn [app].
    rewrite andb_false_r. cbn [raise_if bind length]. do 2 f_equal. apply concat_nils. reflexivity. }
  specialize (G Ha (h_L p) (h_J p) (h_max_order p) y u Hy).
  change (coefs3d numpy_backend3 F (h_rotation_covariant p) (fun u => b3_compute_integrals numpy_backend3 u (h_integral_powers p1)) (h_L p) (h_J p) (h_max_order p) y = Ok cs) in Ecs.
  rewrite Ecs in G. destruct G as (cs' & Ecs' & Hrel).
  eexists. exists m, (st, (with_powers [] p, os0)). eexists. exists (length cs' / Z.to_nat (h_L p + 1)).
  split; [exact Hs|]. split; [exact E1|]. split; [exact E2|]. split; [|split; [|split]].
  - unfold numpy_scattering3, run3. cbn [t_args t_filters]. rewrite Es. change (check3 (with_powers [] p)) with (check3 p). rewrite Ck. cbn [bind]. rewrite B2. cbn [b3_reshape_infer numpy_backend3].
    rewrite Ey. cbn [bind with_powers h_rotation_covariant h_integral_powers h_L h_J h_max_order]. rewrite scattering3d_coefs. unfold coefs3d.
    destruct (R4_vols _ _ _ _ _ _ _ _ Hy) as (vols & -> & Hvols & _ & _ & _). cbn [dt Nat.eqb b3_rfft numpy_backend3]. rewrite np3_rfft_of by assumption. cbn [bind].
    destruct (zrange_cons 0 (h_L p + 1)) as (r & ->); [lia|]. cbn [mapM]. unfold degree3. destruct (zrange_cons 0 (h_J p + 1)) as (r' & ->); [lia|]. cbn [mapM]. unfold first3 at 1.
    rewrite numpy_backend3_eq. rewrite (wavelet_modulus_of (np_cdgmm complex_ops) (Mx p) (Nx p) (Dx p) (h_rotation_covariant p) HM HN HD) with (L := h_L p) (J := h_J p); try assumption; try lia.
    + cbn [bind b3_compute_integrals with_cdgmm]. unfold np3_integrals at 1. cbn [of_vols nd_shape]. destruct (Nat.eqb_spec B 0); [lia|]. reflexivity.
    + intros B0 vols0 w0. now apply np3_cdgmm_of.
    + apply bank_ready.
  - unfold forward3d. rewrite (pl_shape Ht), Es. change (check3 (with_powers [] p)) with (check3 p). rewrite Ck. cbn [bind t_shape t_dtype t_data]. rewrite B1, B2, Eu. cbn [bind]. rewrite E3. cbn [bind].
    cbn [with_powers h_method h_rotation_covariant h_integral_powers h_L h_J h_max_order]. rewrite Hm. change (negb ("integral" =? "integral")%string) with false. cbn [raise_if bind].
    rewrite E4. rewrite scattering3d_coefs. cbn [t_filters] in *. rewrite Ecs'. cbn [bind b3_stack torch_backend3]. rewrite (stack3_empty B cs cs' _ Hcs Hrel HL). cbn [bind t_shape skipn].
    unfold t2_reshape. cbn [t_shape t_dtype t_data t_contig].
    replace (prod (batch ++ _)) with 0 by (rewrite prod_app; cbn; lia). replace (prod [B; _; _; 0]) with 0 by (cbn; lia). reflexivity.
  - reflexivity.
  - reflexivity.
Qed.
Print Assumptions C84_powers_refuted.

(** ** Instances *)
(** Any scales, degree, order and batch, all voxels equal, in double precision, on a tensor that is not contiguous. *)
Definition p3 (J L mo : Z) (cov : bool) (method : string) (q : list R) : params3 := mk_params3 J 4 3 5 L 1 mo cov method q.
Lemma p3_valid J L mo cov method q : (0 <= J)%Z -> (0 <= L)%Z -> q <> [] -> valid3 (p3 J L mo cov method q).
Proof. intros HJ HL Hq. unfold valid3, p3. cbn. repeat split; try lia; [lra|exact Hq]. Qed.
Lemma const_input3 p v batch : 0 < prod batch -> input3 p batch (const_imgs v (batch ++ [Mx p; Nx p; Dx p])).
Proof. intros H. split; [apply (pl_wf (const_plain F32 v _ true))|]. repeat split. exact H. Qed.
Example C84_same_transform_instance : forall sph J L mo cov v batch, (0 <= J)%Z -> (0 <= L)%Z -> 0 < prod batch ->
  let p := p3 J L mo cov "integral" [1%R; 2%R] in
  let l := [Forward (const_tensor F32 v [4; 3; 5] true); To F64; Forward (mk_t F32 [3] [1; 2; 3]%R false)] in
  let sh := batch ++ [4; 3; 5] in
  exists s m m' y y', new3 sph p = Ok s /\ HarmonicScatteringTorch3D sph p = Ok m /\ run_ops3 l m = Ok m' /\
    numpy_scattering3 s (const_imgs v sh) = Ok y /\ forward3d m' (const_tensor F64 v sh false) = Ok y' /\ plain F32 (length sh) y y' /\
    forward3d m' (const_tensor F32 v sh true) = Err TypeError.
Proof.
  intros sph J L mo cov v batch HJ HL Hb p l sh. assert (Hv : valid3 p) by (apply p3_valid; [exact HJ|exact HL|discriminate]). pose proof (new3_ok sph p Hv) as Hs.
  assert (Hx : input3 p batch (const_imgs v sh)) by exact (const_input3 p v batch Hb).
  pose proof (runs3_of numpy_scattering3 p _ (gaussian_filter_bank (Mx p) (Nx p) (Dx p) (h_J p + 1) (h_sigma_0 p)) batch _ (or_introl eq_refl) Hv (bank_ready sph (Mx p) (Nx p) (Dx p) (h_J p) (h_L p) (h_sigma_0 p)) Hx) as Hy.
  destruct (C84_same_transform_partial sph p _ l (length sh) _ _ Hs eq_refl ltac:(discriminate) (const_plain F64 v sh false)) as (m & m' & E1 & E2 & E3).
  destruct (C84_dtype sph p _ l F32 (length sh) _ _ _ Hs eq_refl (const_plain F32 v sh true) ltac:(discriminate) Hy) as (m1 & m1' & G1 & G2 & G3).
  rewrite Hy in E3. destruct E3 as (y' & E3 & E4). do 2 eexists. exists m'. eexists. exists y'. split; [exact Hs|]. split; [exact E1|]. split; [exact E2|]. split; [exact Hy|]. split; [exact E3|]. split; [exact E4|congruence].
Qed.
(** An empty batch: ValueError in NumPy, RuntimeError in torch. *)
Example C84_exception_instance : forall sph v, let p := p3 1 2 2 true "integral" [1%R] in exists s m,
  new3 sph p = Ok s /\ HarmonicScatteringTorch3D sph p = Ok m /\
  numpy_scattering3 s (const_imgs v [0; 4; 3; 5]) = Err ValueError /\ exists e, forward3d m (const_tensor F32 v [0; 4; 3; 5] true) = Err e /\ (e = ValueError \/ e = RuntimeError).
Proof.
  intros sph v p. assert (Hv : valid3 p) by (apply p3_valid; [lia|lia|discriminate]). pose proof (new3_ok sph p Hv) as Hs.
  destruct (C84_same_transform_partial sph p _ [] 4 _ _ Hs eq_refl ltac:(discriminate) (const_plain F32 v [0; 4; 3; 5] true)) as (m & m' & E1 & E2 & E3).
  injection E2 as <-. do 2 eexists. split; [exact Hs|]. split; [exact E1|].
  match type of E3 with context [numpy_scattering3 ?s ?x] => assert (G : numpy_scattering3 s x = Err ValueError) end.
  { unfold numpy_scattering3, run3. cbn [t_args t_filters]. change (nd_shape (const_imgs v [0; 4; 3; 5])) with [0; 4; 3; 5]. change (check3 p [0; 4; 3; 5]) with (@Ok unit tt). cbn [bind].
    change (b3_reshape_infer numpy_backend3 (skipn (length [0; 4; 3; 5] - 3) [0; 4; 3; 5]) (const_imgs v [0; 4; 3; 5])) with (Ok (of_vols Real 0 4 3 5 [])). cbn [bind].
    rewrite scattering3d_coefs. unfold coefs3d. cbn [b3_rfft numpy_backend3]. assert (Hvo : vols_ok 0 4 3 5 []) by (split; [reflexivity|constructor]). rewrite np3_rfft_of by (assumption || lia). cbn [bind].
    destruct (zrange_cons 0 (h_L p + 1)) as (r & ->); [cbn; lia|]. cbn [mapM]. unfold degree3. destruct (zrange_cons 0 (h_J p + 1)) as (r' & ->); [cbn; lia|]. cbn [mapM]. unfold first3 at 1.
    rewrite numpy_backend3_eq. rewrite (wavelet_modulus_of (np_cdgmm complex_ops) 4 3 5 (h_rotation_covariant p)) with (L := h_L p) (J := h_J p) (vols := []); try assumption; try (cbn; lia).
    + cbn [bind b3_compute_integrals with_cdgmm]. reflexivity.
    + intros B0 vols0 w0. apply np3_cdgmm_of; lia.
    + apply bank_ready. }
  split; [exact G|]. rewrite G in E3. destruct E3 as (e' & H1 & [H2|[_ H2]]); exists e'; auto.
Qed.
Example C84_method_instance : forall sph, exists s m y, new3 sph (p3 1 2 2 true "local" [1%R]) = Ok s /\ HarmonicScatteringTorch3D sph (p3 1 2 2 true "local" [1%R]) = Ok m /\
  numpy_scattering3 s (const_imgs 1 [2; 4; 3; 5]) = Ok y /\ forward3d m (const_tensor F32 1 [2; 4; 3; 5] true) = Err ValueError.
Proof.
  intros sph. destruct (C84_method_refuted sph (p3 1 2 2 true "local" [1%R]) [] F32 4 [2] (const_imgs 1 [2; 4; 3; 5]) (const_tensor F32 1 [2; 4; 3; 5] true)) as (s & m & m' & y & H1 & H2 & H3 & H4 & H5).
  - apply p3_valid; [lia|lia|discriminate].
  - discriminate.
  - apply (const_input3 (p3 1 2 2 true "local" [1%R]) 1 [2]). cbn. lia.
  - exact (const_plain F32 1 [2; 4; 3; 5] true).
  - injection H3 as <-. exists s, m, y. auto.
Qed.
Example C84_powers_instance : forall sph, exists s m y n, new3 sph (p3 1 2 2 true "integral" []) = Ok s /\ HarmonicScatteringTorch3D sph (p3 1 2 2 true "integral" []) = Ok m /\
  numpy_scattering3 s (const_imgs 1 [2; 4; 3; 5]) = Err ValueError /\ forward3d m (const_tensor F32 1 [2; 4; 3; 5] true) = Ok y /\ t_shape y = [2; n; 3; 0].
Proof.
  intros sph. destruct (C84_powers_refuted sph (p3 1 2 2 true "integral" [1%R]) [] 4 [2] (const_imgs 1 [2; 4; 3; 5]) (const_tensor F32 1 [2; 4; 3; 5] true)) as (s & m & m' & y & n & H1 & H2 & H3 & H4 & H5 & H6 & _).
  - apply p3_valid; [lia|lia|discriminate].
  - reflexivity.
  - apply (const_input3 (p3 1 2 2 true "integral" [1%R]) 1 [2]). cbn. lia.
  - exact (const_plain F32 1 [2; 4; 3; 5] true).
  - injection H3 as <-. exists s, m, y, n. auto.
Qed.
Example C84_gaussian_instance : forall sph, exists st q os id t, HarmonicScatteringTorch3D sph (p3 1 2 2 true "integral" [1%R]) = Ok (st, (q, os)) /\
  sdict_get (st_bufs st) "tensor_gaussian_filter" = Ok (id, t) /\ t_shape t = [3; 4; 3; 5; 2] /\ length (t_data t) = 360.
Proof.
  intros sph. destruct (C84_gaussian_buffer sph (p3 1 2 2 true "integral" [1%R])) as (s & st & q & os & id & t & _ & H1 & H2 & _ & H3 & H4 & _); [apply p3_valid; [lia|lia|discriminate]|].
  exists st, q, os, id, t. rewrite H4, H3. auto.
Qed.
