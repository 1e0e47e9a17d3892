(** C83: the PyTorch frontend computes the same 2-D transform as the NumPy one. *)
From Coq Require Import String Reals ZArith QArith List Bool Arith Lia Lra.
From Coquelicot Require Import Complex.
From Verif Require Import Base BaseProofs NdArray Backend ComplexOps NdProofs Construct1d Rows1d StackProofs Backend2d Core2d FilterBank2d Frontend2d Images Rows2d Pad2d Eval2d
  Torch1d TorchRel TorchSim TorchStack TorchModule TorchModuleProofs TorchFront PropTorchModule TorchConstructed PropShapes2d PropTorch Torch2d Torch2dRel.
Import ListNotations.
Local Open Scope nat_scope.
Local Open Scope res_scope.
Notation np2 := (numpy_backend2 complex_ops).

(** ** The filters as torch buffers *)
Record lev2_ok (w : nd C) : Prop := { l2_wf : nd_wf w; l2_rank : length (nd_shape w) = 2; l2_dt : nd_dtype w = Real; l2_real : reals (nd_data w) }.
Definition fil2_ok (f : filter2 (nd C)) : Prop := List.Forall lev2_ok (g_levels f).
Lemma level2_ok M N x res : reals x -> lev2_ok (level2 complex_ops M N x res).
Proof.
  intros Hx. unfold level2, periodize2. constructor; cbn [nd_shape nd_dtype nd_data]; try reflexivity.
  - unfold nd_wf. cbn [nd_shape nd_data]. etransitivity; [apply img_length|]. cbn. lia.
  - apply reals_img. intros u v. apply snd_osum0, Forall_map, Forall_forall. intros i _. apply snd_osum0, Forall_map, Forall_forall. intros j _.
    cbn [o_zero complex_ops]. apply iat_real. apply reals_img. intros u0 v0. destruct (_ || _); [reflexivity|]. now apply iat_real.
Qed.
Lemma real_fft2_reals M N x : reals (real_fft2 M N x).
Proof. apply Forall_map, Forall_forall. reflexivity. Qed.
Lemma bank2_ok p : fil2_ok (fst (bank2 p)) /\ List.Forall fil2_ok (snd (bank2 p)).
Proof.
  unfold bank2, filter_bank. cbn [fst snd]. split.
  - apply Forall_map, Forall_forall. intros r _. apply level2_ok, real_fft2_reals.
  - apply Forall_forall. intros f Hf. apply in_flat_map in Hf as (j & _ & Hf). apply in_map_iff in Hf as (th & <- & _).
    apply Forall_map, Forall_forall. intros r _. apply level2_ok, real_fft2_reals.
Qed.
Definition buffer2 (d : fdtype) (w : nd C) : tensor := cast d (from_numpy2 w).
Lemma fmap2_frel d f : fil2_ok f -> frel2 d f (fmap2 (buffer2 d) f).
Proof.
  intros H. constructor; try reflexivity. unfold fmap2. cbn [g_levels]. induction H as [|w l Hw H IH]; cbn [map]; constructor; [|exact IH].
  destruct Hw as [W1 W2 W3 W4]. split; [|reflexivity]. constructor; auto.
Qed.
Lemma map_frel2 d l : List.Forall fil2_ok l -> Forall2 (frel2 d) l (map (fmap2 (buffer2 d)) l).
Proof. intros H. induction H; cbn [map]; constructor; auto using fmap2_frel. Qed.

(** A module that keeps its attributes. *)
Notation call2d := (fun (_ : store tensor) (s : scat2 tensor (nd C)) => Ok s).
Lemma history_keep {S} h : forall (st : store tensor) (s : S),
  history (fun _ s => Ok s) h st s = match history (fun _ (u : unit) => Ok u) h st tt with Ok (st1, _) => Ok (st1, s) | Err e => Err e end.
Proof. induction h as [|[f b|] h IH]; intros st s; cbn [history bind]; [reflexivity|apply IH|apply IH]. Qed.
Definition torch2_attrs (p : params2) : scat2 tensor (nd C) :=
  mk_scat2 p (padded_size (a_M p) (a_J p)) (padded_size (a_N p) (a_J p)) (t2_padding p) (fst (bank2 p)) (snd (bank2 p)).
Lemma torch2_new p : (0 <= a_J p)%Z -> (2 ^ a_J p <= a_M p)%Z -> (2 ^ a_J p <= a_N p)%Z ->
  ScatteringTorch2D p = Ok (register2d from_numpy2 (fst (bank2 p)) (snd (bank2 p)) empty_store, torch2_attrs p).
Proof. intros HJ HM HN. unfold ScatteringTorch2D, ScatteringNumPy2D. rewrite new2_eval by assumption. reflexivity. Qed.
Lemma torch2d_filters p l : exists st phi psi,
  run_ops call2d l (register2d from_numpy2 (fst (bank2 p)) (snd (bank2 p)) empty_store, torch2_attrs p) = Ok (st, torch2_attrs p) /\
  load2d st (fst (bank2 p)) (snd (bank2 p)) = Ok (phi, psi) /\
  fmap2 snd phi = fmap2 (buffer2 (dtype_after l)) (fst (bank2 p)) /\ map (fmap2 snd) psi = map (fmap2 (buffer2 (dtype_after l))) (snd (bank2 p)).
Proof.
  set (st0 := register2d _ _ _ _). destruct (run_ops_history call2d l st0 (torch2_attrs p)) as (h & Hu & Hf & Hr).
  destruct (C51_filters_follow_2d from_numpy2 (fst (bank2 p)) (snd (bank2 p)) h st0 eq_refl) as (st1 & phi & psi & Eh & El & _ & _ & _ & V).
  exists st1, phi, psi. rewrite Hr, history_keep, Eh. split; [reflexivity|]. split; [exact El|].
  destruct (V Hu ""%string) as [V1 V2]. assert (G : forall w, follow h "" (from_numpy2 w) = buffer2 (dtype_after l) w) by (intros w; rewrite Hf; apply casts_after).
  split; [rewrite V1|rewrite V2; apply map_ext; intros f]; unfold fmap2; f_equal; apply map_ext, G.
Qed.

(** NumPy raises RuntimeError on a wrong shape or output type and returns otherwise, when J >= 1. *)
Lemma numpy_outcome p k d x t : accepted2 p -> plain d k x t ->
  scattering2 np2 (npobj p) x = Err RuntimeError \/ exists y, scattering2 np2 (npobj p) x = Ok y.
Proof.
  intros Hp Hx. destruct (Frontend2d.check2 np2 (npobj p) x) as [[]|e] eqn:Ec.
  - right. unfold Frontend2d.check2 in Ec. cbn [b2_shape numpy_backend2] in Ec. destruct (split_last2 (nd_shape x)) as [[[pre m] n]|] eqn:Es; [|discriminate]. cbn [bind] in Ec.
    apply split_last2_inv in Es. inv_bind Ec. inv_bind Ec. apply raise_if_Ok in E, E0, Ec. cbn [npobj object2 c_args c_N_padded c_M_padded] in *.
    assert (H : m = M_in p /\ n = N_in p).
    { unfold M_in, N_in, Mp, Np. destruct (a_pre_pad p); cbn [negb] in *; rewrite andb_true_r in *.
      - apply orb_false_iff in E0 as [E1 E2]. apply negb_false_iff in E1, E2. apply Z.eqb_eq in E1, E2. lia.
      - apply orb_false_iff in E as [E1 E2]. apply negb_false_iff in E1, E2. apply Z.eqb_eq in E1, E2. lia. }
    destruct H as [-> ->]. destruct (of_imgs_intro x pre _ _ (pl_wf Hx) Es) as (ims & Ei & Hi). rewrite (pl_dt Hx) in Ei. rewrite Ei.
    apply negb_false_iff, orb_true_iff in Ec as [Ec|Ec]; apply String.eqb_eq in Ec.
    + destruct (numpy_array p pre ims Hp Hi Ec) as (y & E1 & _). eauto.
    + eexists. now apply numpy_list.
  - left. unfold scattering2. rewrite Ec. cbn [bind]. f_equal. unfold Frontend2d.check2 in Ec.
    destruct (split_last2 _) as [[[pre m] n]|]; cbn [bind] in Ec; [|congruence].
    repeat match goal with H : context [raise_if ?b ?x] |- _ => destruct b; cbn [raise_if bind] in H end; congruence.
Qed.

(** [x] and [t] hold the same real numbers: same shape, [t] of dtype [d] (TorchRel.v). *)

(** The operations on batches of [B] images of [m x n] pixels.  [R3 d c B m n x t]: an array of shape [B; m; n], real for [c = 1],
    complex for [c = 2], and a contiguous tensor of dtype [d] with a trailing axis of length [c]. *)
Theorem C83_operations : forall d B m n x t, 0 < m -> 0 < n ->
  (R3 d 1 B m n x t -> sim true (R3 d 2 B m n) (np2_rfft complex_ops x) (t2_rfft t)) /\
  (R3 d 2 B m n x t -> sim true (R3 d 2 B m n) (np2_ifft complex_ops x) (t2_ifft t)) /\
  (R3 d 2 B m n x t -> sim true (fun y u => rep d 1 3 y u /\ nd_shape y = [B; m; n]) (np2_irfft complex_ops x) (t2_irfft t)) /\
  (R3 d 2 B m n x t -> sim true (R3 d 1 B m n) (np_modulus complex_ops x) (t_modulus t)) /\
  (forall w u, R3 d 2 B m n x t -> crep d 1 2 w u -> sim true (R3 d 2 B m n) (np_cdgmm complex_ops x w) (t_cdgmm t u)) /\
  (forall k, 0 < k -> R3 d 2 B (k * m) (k * n) x t -> sim true (R3 d 2 B m n) (np2_subsample complex_ops x (PInt (Z.of_nat k))) (t2_subsample t (PInt (Z.of_nat k)))) /\
  (rep d 1 3 x t -> nd_shape x = [B; m; n] -> sim true (fun y u => plain d 3 y u /\ nd_shape y = [B; m - 2; n - 2]) (np2_unpad complex_ops x) (t2_unpad t)) /\
  (forall a b l r, 2 <= m -> 2 <= n -> pad_ok m a b -> pad_ok n l r -> plain d 3 x t -> nd_shape x = [B; m; n] ->
     sim true (R3 d 1 B (a + m + b) (l + n + r)) (np2_pad complex_ops (Z.of_nat a, Z.of_nat b, Z.of_nat l, Z.of_nat r) (Z.of_nat m, Z.of_nat n) x)
       (t2_pad (Z.of_nat a, Z.of_nat b, Z.of_nat l, Z.of_nat r) (Z.of_nat m, Z.of_nat n) t)).
Proof.
  intros d B m n x t Hm Hn. split; [intros H; now apply rfft2_sim|]. split; [intros H; now apply ifft2_sim|]. split; [intros H; now apply irfft2_sim|].
  split; [intros H; now apply modulus2_sim|]. split; [intros w u H1 H2; now apply cdgmm2_sim|]. split; [intros k Hk H; now apply subsample2_sim|].
  split; [intros H1 H2; now apply unpad2_sim|]. intros a b l r H1 H2 H3 H4 H5 H6. now apply pad2_gen.
Qed.
Print Assumptions C83_operations.

(** The constructors raise the same exceptions. *)
Theorem C83_constructor : forall p e, ScatteringNumPy2D p = Err e <-> ScatteringTorch2D p = Err e.
Proof.
  intros p e. unfold ScatteringTorch2D. destruct (ScatteringNumPy2D p) as [s|e']; cbn [bind]; [split; discriminate|split; intros E; injection E as ->; reflexivity].
Qed.
Print Assumptions C83_constructor.

Lemma new2_inv p s : ScatteringNumPy2D p = Ok s -> (0 <= a_J p /\ 2 ^ a_J p <= a_M p /\ 2 ^ a_J p <= a_N p)%Z /\ s = npobj p.
Proof.
  intros H. assert (G : (0 <= a_J p /\ 2 ^ a_J p <= a_M p /\ 2 ^ a_J p <= a_N p)%Z).
  { revert H. unfold ScatteringNumPy2D, new2. destruct (Z.ltb_spec (a_J p) 0).
    - try discriminate. destruct (_ || _)%bool; discriminate.
    - destruct (Z.ltb_spec (a_M p) (2 ^ a_J p)), (Z.ltb_spec (a_N p) (2 ^ a_J p)); cbn [orb raise_if bind]; try discriminate. lia. }
  split; [exact G|]. unfold ScatteringNumPy2D in H. rewrite new2_eval in H by apply G. injection H as <-. reflexivity.
Qed.

(** For every configuration accepted by the constructor and every sequence of casts and calls of the module, a call on a contiguous
    tensor of the dtype of the module returns the coefficients and the paths that NumPy returns on the same numbers, and raises the
    same exception when NumPy raises.  Missing from the full claim: tensors of another dtype and non-contiguous tensors (below). *)
Theorem C83_same_transform_partial : forall p s l k x t, ScatteringNumPy2D p = Ok s ->
  plain (dtype_after l) k x t -> t_contig t = true ->
  exists m m', ScatteringTorch2D p = Ok m /\ run_ops call2d l m = Ok m' /\
    match scattering2 np2 s x with
    | Ok y => exists y', forward2d m' t = Ok y' /\ out_rel2 (dtype_after l) k y y'
    | Err e => forward2d m' t = Err e
    end.
Proof.
  intros p s l k x t Hs Hx Hc. destruct (new2_inv _ _ Hs) as [(HJ & HM & HN) ->].
  eexists. destruct (torch2d_filters p l) as (st & phi & psi & R & L & V1 & V2).
  exists (st, torch2_attrs p). split; [apply torch2_new; assumption|]. split; [exact R|].
  unfold forward2d, t_contiguous_check. rewrite Hc. cbn [negb raise_if bind].
  rewrite (check2_same (dtype_after l) (npobj p) _ k x t Hx) by reflexivity.
  destruct (Frontend2d.check2 np2 (npobj p) x) as [[]|e] eqn:Ec; cbn [bind]; [|unfold scattering2; rewrite Ec; reflexivity].
  cbn [torch2_attrs c_phi c_psi c_args c_M_padded c_N_padded c_pad]. rewrite L. cbn [bind]. rewrite V1, V2.
  destruct (bank2_ok p) as [B1 B2].
  destruct (Z.eq_dec (a_J p) 0) as [E0|E0].
  - destruct (scattering2_sim0 (dtype_after l) true p k x t (fmap2 (buffer2 (dtype_after l)) (fst (bank2 p))) (map (fmap2 (buffer2 (dtype_after l))) (snd (bank2 p))) E0) as (e & F1 & F2);
      try assumption; try (rewrite E0 in HM, HN; cbn in HM, HN; lia); [unfold bank2; rewrite E0; reflexivity|]. rewrite F1. exact F2.
  - assert (Hp : accepted2 p) by (split; [lia|split; assumption]).
    pose proof (scattering2_sim (dtype_after l) true p k x t _ _ Hp Hx Hc (fmap2_frel (dtype_after l) _ B1) (map_frel2 (dtype_after l) _ B2)) as G.
    destruct (numpy_outcome p k _ x t Hp Hx) as [E|(y & E)]; rewrite E in G |- *.
    + destruct (G eq_refl) as (e' & F & [<- | [F1 _]]); [exact F|discriminate].
    + exact G.
Qed.
Print Assumptions C83_same_transform_partial.

(** A tensor of another dtype than the module's raises TypeError where NumPy returns. *)
Lemma cdgmm2_mismatch d d' B m n x t w u y : R3 d' 2 B m n x t -> crep d 1 2 w u -> d <> d' -> np_cdgmm complex_ops x w = Ok y -> t_cdgmm t u = Err TypeError.
Proof.
  intros Hx Hw Hd E.
  assert (Hw' : crep d' 1 2 w (cast d' u)). { destruct Hw as [[] C]. split; [|exact C]. constructor; auto. }
  pose proof (cdgmm2_sim d' true B m n x t w (cast d' u) Hx Hw') as G. rewrite E in G. destruct G as (v & G & _). revert G. unfold t_cdgmm, cast.
  cbn [t_shape t_dtype t_data t_contig].
  destruct (split_last (t_shape u)) as [[sB cB]|]; [|discriminate]. cbn [bind].
  assert (F : (if Nat.eqb cB 1 then t_contiguous_check (mk_t d' (t_shape u) (t_data u) (t_contig u)) else _ <- t_complex_check (mk_t d' (t_shape u) (t_data u) (t_contig u)) ;; t_contiguous_check (mk_t d' (t_shape u) (t_data u) (t_contig u))) =
    (if Nat.eqb cB 1 then t_contiguous_check u else _ <- t_complex_check u ;; t_contiguous_check u)) by (intros; destruct u; reflexivity).
  rewrite F. destruct (if Nat.eqb cB 1 then _ else _); [|discriminate]. cbn [bind].
  destruct (t_complex_check t); [|discriminate]. cbn [bind]. destruct (t_contiguous_check t); [|discriminate]. cbn [bind].
  destruct (split_last (t_shape t)) as [[sA cA]|]; [|discriminate]. cbn [bind]. destruct (list_eq_dec _ _ _); [|discriminate].
  destruct Hx as [[Hx _] _], Hw as [Hw _]. rewrite (rp_dtype Hx), (rp_dtype Hw). destruct d, d'; try congruence; reflexivity.
Qed.
Lemma scattering2_mis d d' p k x t phi' psi' : d <> d' -> accepted2 p -> plain d' k x t -> t_contig t = true -> frel2 d (fst (bank2 p)) phi' ->
  mis (scattering2 np2 (npobj p) x)
    (scattering2 torch_backend2 (mk_scat2 p (padded_size (a_M p) (a_J p)) (padded_size (a_N p) (a_J p)) (t2_padding p) phi' psi') t).
Proof.
  intros Hd Hp Hx Hc Hphi. unfold scattering2. rewrite (check2_same d' (npobj p) _ k x t Hx) by reflexivity.
  destruct (Frontend2d.check2 np2 (npobj p) x) as [[]|e] eqn:Ec; cbn [bind]; [|exact I].
  unfold Frontend2d.check2 in Ec. cbn [b2_shape numpy_backend2] in Ec. destruct (split_last2 (nd_shape x)) as [[[pre m] n]|] eqn:Es; [|discriminate]. cbn [bind] in Ec.
  apply split_last2_inv in Es. inv_bind Ec. inv_bind Ec. apply raise_if_Ok in E, E0, Ec. cbn [npobj object2 c_args c_N_padded c_M_padded] in *.
  pose proof (bank2_ready p Hp) as Hr.
  assert (Hmn : 0 < m /\ 0 < n).
  { destruct Hp as (HJ & HM & HN). assert (0 < 2 ^ a_J p)%Z by (apply Z.pow_pos_nonneg; lia). unfold padded_size in E0.
    pose proof (Z.div_str_pos (a_M p) (2 ^ a_J p)). pose proof (Z.div_str_pos (a_N p) (2 ^ a_J p)).
    destruct (a_pre_pad p); cbn [negb] in *; rewrite andb_true_r in *.
    - apply orb_false_iff in E0 as [E1 E2]. apply negb_false_iff in E1, E2. apply Z.eqb_eq in E1, E2. nia.
    - apply orb_false_iff in E as [E1 E2]. apply negb_false_iff in E1, E2. apply Z.eqb_eq in E1, E2. lia. }
  cbn [b2_shape numpy_backend2 torch_backend2 b2_reshape_infer]. rewrite (pl_shape Hx), Es, batch_signal_app by apply Hmn.
  eapply mis_sim; [apply (reshape_infer2_sim d' true k x t [m; n] Hx)|]. intros y u (Hy & (B & Sy) & Hcu). rewrite Hc in Hcu.
  assert (Hpad : sim true (R3 d' 1 B (Mp p) (Np p)) (c_pad (npobj p) y) (t2_padding p u)).
  { unfold t2_padding. cbn [npobj object2 c_pad]. destruct (a_pre_pad p); cbn [negb] in E, E0.
    - rewrite andb_true_r in E0. apply orb_false_iff in E0 as [E1 E2]. apply negb_false_iff in E1, E2. apply Z.eqb_eq in E1, E2.
      apply unsqueeze2_sim; [exact Hy| |exact Hcu]. rewrite Sy. unfold Mp, Np. repeat f_equal; lia.
    - rewrite andb_true_r in E. apply orb_false_iff in E as [E1 E2]. apply negb_false_iff in E1, E2. apply Z.eqb_eq in E1, E2.
      apply pad2_sim; [exact Hp|exact Hy|]. rewrite Sy. repeat f_equal; lia. }
  apply mis_bind. unfold scattering2d. apply mis_bind. unfold paths2. cbn [c_args c_phi c_psi c_pad npobj object2].
  eapply mis_sim; [exact Hpad|]. intros U U' HU.
  eapply mis_sim; [apply (rfft2_sim d' true B (Mp p) (Np p)); [apply Hr|apply Hr|exact HU]|]. intros V V' HV.
  apply mis_bind. unfold lowpass2. eapply mis_sim; [apply sim_py_index, (fr2_levels _ _ _ Hphi)|]. intros w w' Hw. apply mis_bind.
  cbn [b2_cdgmm numpy_backend2 torch_backend2]. destruct (np_cdgmm complex_ops V w) eqn:Ew; [|exact I].
  apply (cdgmm2_mismatch d d' B (Mp p) (Np p) V V' w w' _ HV Hw Hd Ew).
Qed.
Theorem C83_dtype : forall p s l d k x t y, ScatteringNumPy2D p = Ok s -> plain d k x t -> t_contig t = true -> d <> dtype_after l ->
  scattering2 np2 s x = Ok y ->
  exists m m', ScatteringTorch2D p = Ok m /\ run_ops call2d l m = Ok m' /\ forward2d m' t = Err TypeError.
Proof.
  intros p s l d k x t y Hs Hx Hc Hd Hy. destruct (new2_inv _ _ Hs) as [(HJ & HM & HN) ->].
  eexists. destruct (torch2d_filters p l) as (st & phi & psi & R & L & V1 & V2).
  exists (st, torch2_attrs p). split; [apply torch2_new; assumption|]. split; [exact R|].
  unfold forward2d, t_contiguous_check. rewrite Hc. cbn [negb raise_if bind].
  rewrite (check2_same d (npobj p) _ k x t Hx) by reflexivity.
  destruct (Frontend2d.check2 np2 (npobj p) x) as [[]|e] eqn:Ec; cbn [bind]; [|unfold scattering2 in Hy; rewrite Ec in Hy; discriminate].
  cbn [torch2_attrs c_phi c_psi c_args c_M_padded c_N_padded c_pad]. rewrite L. cbn [bind]. rewrite V1, V2.
  destruct (bank2_ok p) as [B1 B2].
  destruct (Z.eq_dec (a_J p) 0) as [E0|E0].
  - destruct (scattering2_sim0 d true p k x t (fmap2 (buffer2 (dtype_after l)) (fst (bank2 p))) [] E0) as (e & F1 & F2);
      try assumption; try (rewrite E0 in HM, HN; cbn in HM, HN; lia); [unfold bank2; rewrite E0; reflexivity|]. congruence.
  - assert (Hp : accepted2 p) by (split; [lia|split; assumption]).
    pose proof (scattering2_mis (dtype_after l) d p k x t _ (map (fmap2 (buffer2 (dtype_after l))) (snd (bank2 p))) (not_eq_sym Hd) Hp Hx Hc (fmap2_frel (dtype_after l) _ B1)) as G.
    rewrite Hy in G. exact G.
Qed.
Print Assumptions C83_dtype.

(** A non-contiguous tensor (a slice or a transpose of another one) is rejected, where NumPy computes. *)
Theorem C83_contiguity_refuted : forall J M N L pre x t, (1 <= J)%Z -> (2 ^ J <= M)%Z -> (2 ^ J <= N)%Z ->
  plain F32 (length pre + 2) x t -> nd_shape x = pre ++ [Z.to_nat M; Z.to_nat N] -> t_contig t = false ->
  exists s m y, ScatteringNumPy2D (mk_params2 J M N L 2 false "array") = Ok s /\ ScatteringTorch2D (mk_params2 J M N L 2 false "array") = Ok m /\
    scattering2 np2 s x = Ok y /\ forward2d m t = Err RuntimeError.
Proof.
  intros J M N L pre x t HJ HM HN Hx Hsh Hc. set (p := mk_params2 J M N L 2 false "array").
  destruct (C45_total p pre x HJ HM HN eq_refl (or_introl eq_refl)) as [(s & y & Hs & Hy) _]; [split; [exact (pl_wf Hx)|split; [exact (pl_dt Hx)|exact Hsh]]|].
  exists s. eexists. exists y. split; [exact Hs|]. split; [apply torch2_new; cbn; lia|]. split; [exact Hy|].
  unfold forward2d, t_contiguous_check. rewrite Hc. reflexivity.
Qed.
Print Assumptions C83_contiguity_refuted.

(** ** Instances *)
(** Every J >= 1 and L, images of any size of at least 2^J in batches of any shape, all pixels equal, after a cast to double precision,
    a rejected call and a cast back. *)
Definition const_imgs (v : R) (s : list nat) : nd C := mk_nd Real s (repeat (RtoC v) (prod s)).
Definition const_tensor (d : fdtype) (v : R) (s : list nat) (c : bool) : tensor := mk_t d s (repeat v (prod s)) c.
Lemma const_plain d v s c : plain d (length s) (const_imgs v s) (const_tensor d v s c).
Proof.
  constructor; try reflexivity; cbn [const_imgs const_tensor nd_data t_data].
  - unfold nd_wf. cbn [nd_data nd_shape]. apply repeat_length.
  - apply Forall_forall. intros z Hz. apply repeat_spec in Hz. now subst.
  - induction (prod s); cbn; congruence.
Qed.
Example C83_same_transform_instance : forall J M N L v pre, (1 <= J)%Z -> (2 ^ J <= M)%Z -> (2 ^ J <= N)%Z ->
  let l := [To F64; Forward (mk_t F32 [3] [1; 2; 3]%R false); To F32] in
  let sh := pre ++ [Z.to_nat M; Z.to_nat N] in
  exists s m m' y y', ScatteringNumPy2D (mk_params2 J M N L 2 false "list") = Ok s /\ ScatteringTorch2D (mk_params2 J M N L 2 false "list") = Ok m /\
    run_ops call2d l m = Ok m' /\ scattering2 np2 s (const_imgs v sh) = Ok y /\ forward2d m' (const_tensor F32 v sh true) = Ok y' /\
    out_rel2 F32 (length sh) y y' /\ forward2d m' (const_tensor F64 v sh true) = Err TypeError.
Proof.
  intros J M N L v pre HJ HM HN l sh. set (p := mk_params2 J M N L 2 false "list").
  destruct (C45_total p pre (const_imgs v sh) HJ HM HN eq_refl (or_intror eq_refl)) as [(s & y & Hs & Hy) _].
  { split; [apply (pl_wf (const_plain F32 v sh true))|split; reflexivity]. }
  destruct (C83_same_transform_partial p s l (length sh) _ _ Hs (const_plain F32 v sh true) eq_refl) as (m & m' & E1 & E2 & E3).
  destruct (C83_dtype p s l F64 (length sh) _ _ y Hs (const_plain F64 v sh true) eq_refl ltac:(discriminate) Hy) as (m1 & m1' & G1 & G2 & G3).
  rewrite Hy in E3. destruct E3 as (y' & E3 & E4). exists s, m, m', y, y'. repeat split; try assumption. congruence.
Qed.
(** A wrong size: the same exception. *)
Example C83_exception_instance : forall v, exists s m,
  ScatteringNumPy2D (mk_params2 2 8 9 8 2 false "array") = Ok s /\ ScatteringTorch2D (mk_params2 2 8 9 8 2 false "array") = Ok m /\
  scattering2 np2 s (const_imgs v [9; 8]) = Err RuntimeError /\ forward2d m (const_tensor F32 v [9; 8] true) = Err RuntimeError.
Proof.
  intros v. set (p := mk_params2 2 8 9 8 2 false "array"). assert (Hs : ScatteringNumPy2D p = Ok (npobj p)) by (unfold ScatteringNumPy2D; rewrite new2_eval by (cbn; lia); reflexivity).
  destruct (C83_same_transform_partial p _ [] 2 _ _ Hs (const_plain F32 v [9; 8] true) eq_refl) as (m & m' & E1 & E2 & E3).
  injection E2 as <-. exists (npobj p), m. split; [exact Hs|]. split; [exact E1|]. split; [reflexivity|].
  assert (G : scattering2 np2 (npobj p) (const_imgs v [9; 8]) = Err RuntimeError) by reflexivity. rewrite G in E3. exact E3.
Qed.
(** J = 0: IndexError in both, whatever the size. *)
Example C83_J0_instance : forall v M N, (1 <= M)%Z -> (1 <= N)%Z -> exists s m,
  ScatteringNumPy2D (mk_params2 0 M N 8 2 false "array") = Ok s /\ ScatteringTorch2D (mk_params2 0 M N 8 2 false "array") = Ok m /\
  scattering2 np2 s (const_imgs v [Z.to_nat M; Z.to_nat N]) = Err IndexError /\ forward2d m (const_tensor F32 v [Z.to_nat M; Z.to_nat N] true) = Err IndexError.
Proof.
  intros v M N HM HN. set (p := mk_params2 0 M N 8 2 false "array"). assert (Hs : ScatteringNumPy2D p = Ok (npobj p)) by (unfold ScatteringNumPy2D; rewrite new2_eval by (cbn; lia); reflexivity).
  destruct (C83_same_transform_partial p _ [] 2 _ _ Hs (const_plain F32 v [Z.to_nat M; Z.to_nat N] true) eq_refl) as (m & m' & E1 & E2 & E3).
  injection E2 as <-. exists (npobj p), m. split; [exact Hs|]. split; [exact E1|].
  assert (G : scattering2 np2 (npobj p) (const_imgs v [Z.to_nat M; Z.to_nat N]) = Err IndexError).
  { apply (C45_J0 p (npobj p) []); try assumption; try reflexivity; [now left|]. split; [apply (pl_wf (const_plain F32 v _ true))|split; reflexivity]. }
  rewrite G in E3. auto.
Qed.
Example C83_contiguity_instance : exists s m y, ScatteringNumPy2D (mk_params2 2 8 9 8 2 false "array") = Ok s /\ ScatteringTorch2D (mk_params2 2 8 9 8 2 false "array") = Ok m /\
  scattering2 np2 s (const_imgs 1 [3; 8; 9]) = Ok y /\ forward2d m (const_tensor F32 1 [3; 8; 9] false) = Err RuntimeError.
Proof. apply (C83_contiguity_refuted 2 8 9 8 [3]); try (cbn; lia); try reflexivity. apply (const_plain F32 1 [3; 8; 9] false). Qed.
