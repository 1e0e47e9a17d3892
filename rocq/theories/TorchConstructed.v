(** Filters of constructed objects, as torch buffers: every level is a real vector, so its torch copy represents it. *)
From Coq Require Import String Reals ZArith QArith List Bool Arith Lia Lra.
From Coquelicot Require Import Complex.
From Verif Require Import Base BaseProofs NdArray Backend Core1d Utils1d Frontend1d Factory1d FactoryProofs ComplexOps NdProofs FilterBank1d Construct1d
  Jtfs JtfsFront JtfsConstruct Torch1d TorchRel TorchSim TorchStack TorchCore TorchJtfs TorchModule TorchModuleProofs TorchFront PropTorchModule.
Import ListNotations.
Local Open Scope nat_scope.
Local Open Scope res_scope.

(** A real vector. *)
Record lev_ok (w : nd C) : Prop := { lv_wf : nd_wf w; lv_rank : length (nd_shape w) = 1; lv_dt : nd_dtype w = Real; lv_real : reals (nd_data w) }.
Definition fil_ok {P} (f : Core1d.filter (nd C) P) : Prop := List.Forall lev_ok (f_levels f).

Lemma snd_osum0 l : reals l -> snd (osum complex_ops l) = 0%R.
Proof. intros H. induction H as [|z l Hz H IH]; [reflexivity|]. change (snd z + snd (osum complex_ops l) = 0)%R. rewrite Hz, IH. lra. Qed.

Lemma reduce_ok w l w' : lev_ok w -> reduce_level complex_ops w l = Ok w' -> lev_ok w'.
Proof.
  intros [W1 W2 W3 W4] E. unfold reduce_level in E. destruct (Nat.eqb _ _); [|discriminate]. injection E as <-. constructor; cbn [nd_shape nd_dtype nd_data].
  - unfold nd_wf, periodize_sum_row. cbn [nd_shape nd_data]. rewrite map_length, seq_length. unfold prod. cbn. lia.
  - reflexivity.
  - exact W3.
  - unfold periodize_sum_row. apply Forall_map, Forall_forall. intros i _. apply snd_osum0. apply Forall_map, Forall_forall. intros r _.
    cbn [o_zero complex_ops]. now apply nth_reals.
Qed.
Lemma levels_ok w stop ls : lev_ok w -> levels_upto complex_ops w stop = Ok ls -> List.Forall lev_ok ls.
Proof.
  intros H E. unfold levels_upto in E. inv_bind E. injection E as <-. constructor; [exact H|]. apply mapM_ok in E0.
  induction E0; constructor; eauto using reduce_ok.
Qed.

Section Formulas.
Context {P : Type} (F : formulas C P).
Hypothesis Hm : forall N xi s, lev_ok (fo_morlet F N xi s).
Hypothesis Hg : forall N s, lev_ok (fo_gauss F N s).
Lemma layer_ok N l2T pj bank psis : mapM (make_psi complex_ops F N l2T pj) bank = Ok psis -> List.Forall fil_ok psis.
Proof.
  intros H. apply Forall_forall. intros f Hf. destruct (layer_In complex_ops F _ _ _ _ _ _ H Hf) as (xi & s & _ & _ & _ & _ & E).
  exact (levels_ok _ _ _ (Hm N xi s) E).
Qed.
Lemma layers_ok N J l2T Qs : forall mj pj psis pj', make_layers complex_ops F N J l2T Qs mj pj = Ok (psis, pj') -> List.Forall (List.Forall fil_ok) psis.
Proof.
  induction Qs as [|[q|] Qs IH]; intros mj pj psis pj' E; cbn [make_layers] in E; [injection E as <- <-; constructor| |discriminate].
  inv_bind E. inv_bind E. destruct v0 as [rest pj2]. injection E as <- <-. constructor; [eapply layer_ok; eassumption|eapply IH; eassumption].
Qed.
Lemma factory_ok N J Qs T l2T phi psis : filter_factory complex_ops F N J Qs T l2T = Ok (phi, psis) -> fil_ok phi /\ List.Forall (List.Forall fil_ok) psis.
Proof.
  intros E. unfold filter_factory in E. inv_bind E. destruct v as [ps pj]. inv_bind E. injection E as <- <-. split; [|eapply layers_ok; eassumption].
  unfold fil_ok. cbn [f_levels]. eapply levels_ok; [apply Hg|eassumption].
Qed.
End Formulas.

Lemma morlet_ok N xi s : lev_ok (morlet_1d N xi s).
Proof.
  unfold morlet_1d. constructor; cbn [nd_shape nd_dtype nd_data]; [|reflexivity|reflexivity|apply Forall_map, Forall_forall; reflexivity].
  unfold nd_wf. cbn [nd_shape nd_data]. rewrite map_length, seq_length. unfold prod. cbn. lia.
Qed.

(** All filters of a constructed object. *)
Record scat_ok (s : scat1d (nd C) R) : Prop := { so_phi : fil_ok (s_phi s); so_psi1 : List.Forall fil_ok (s_psi1 s); so_psi2 : List.Forall fil_ok (s_psi2 s) }.
Lemma new_ok support p out s : Scattering1D support p out = Ok s -> scat_ok s.
Proof.
  intros H. apply new_inv in H. destruct H as (b & Qs & T & l2T & phi & psi1s & psi2s & _ & _ & _ & _ & EF & _ & ->).
  apply factory_ok in EF; [|intros; apply morlet_ok|intros; apply morlet_ok]. destruct EF as [H1 H2].
  pose proof (Forall_inv H2). pose proof (Forall_inv (Forall_inv_tail H2)). constructor; assumption.
Qed.
Lemma newj_ok support p out s : TimeFrequencyScattering support p out = Ok s -> scat_ok (t_base s) /\ fil_ok (t_phi_fr s) /\ List.Forall fil_ok (t_psis_fr s).
Proof.
  intros H. apply new_jtfs_inv in H. destruct H as (pb & Q_fr & q0 & q1 & F & _ & H & _ & _ & _ & _ & _ & _ & _ & H2 & phi1 & psis & H3 & ->).
  split; [now apply new_ok in H|].
  apply factory_ok in H2; [|intros; apply morlet_ok|intros; apply morlet_ok].
  apply factory_ok in H3; [|intros; apply morlet_ok|intros; apply morlet_ok]. destruct H2 as [H2 _], H3 as [H3 H4].
  split; [exact H2|]. constructor; [exact H3|exact (Forall_inv H4)].
Qed.

(** The buffers represent the filters. *)
Definition buffer (d : fdtype) (w : nd C) : tensor := cast d (from_numpy w).
Lemma buffer_frep d w : lev_ok w -> frep d w (buffer d w).
Proof.
  intros [W1 W2 W3 W4]. split; [|reflexivity]. constructor; auto.
  - unfold buffer, cast, from_numpy. cbn [t_shape]. destruct (nd_shape w) as [|n [|]] eqn:E; try discriminate. unfold nd_wf in W1. rewrite E in W1.
    unfold prod in W1. cbn in W1. cbn [app]. f_equal. lia.
Qed.
Lemma fmap_frel {P} d (f : Core1d.filter (nd C) P) : fil_ok f -> frel d f (fmap (buffer d) f).
Proof.
  intros H. constructor; try reflexivity. unfold fmap, with_levels. cbn [f_levels]. unfold fil_ok in H. induction H; cbn [map]; constructor; auto using buffer_frep.
Qed.
Lemma map_frel {P} d (l : list (Core1d.filter (nd C) P)) : List.Forall fil_ok l -> Forall2 (frel d) l (map (fmap (buffer d)) l).
Proof. intros H. induction H; cbn [map]; constructor; auto using fmap_frel. Qed.
Lemma smap_srel d s : scat_ok s -> srel d s (smap (buffer d) s).
Proof. intros [H1 H2 H3]. constructor; try reflexivity; [now apply fmap_frel|now apply map_frel|now apply map_frel]. Qed.
Lemma jmap_tjrel d s : scat_ok (t_base s) -> fil_ok (t_phi_fr s) -> List.Forall fil_ok (t_psis_fr s) -> tjrel d s (jmap (buffer d) s).
Proof. intros H1 H2 H3. constructor; try reflexivity; [now apply smap_srel|now apply fmap_frel|now apply map_frel]. Qed.

(** Operations on a module form a history of moves alike for all buffers. *)
Definition casts (l : list op) (v : tensor) : tensor := fold_left (fun v o => match o with To d => cast d v | Forward _ => v end) l v.
Lemma run_ops_history {S} (load : store tensor -> S -> res S) l : forall st s,
  exists h, uniform h /\ (forall k v, follow h k v = casts l v) /\ run_ops load l (st, s) = history load h st s.
Proof.
  induction l as [|[d|x] l IH]; intros st s.
  - exists []. repeat split. constructor.
  - cbn [run_ops run_op op_event bind].
    set (ip := fun k => match sdict_get (st_bufs st) k with Ok o => fdtype_eqb (t_dtype (snd o)) d | Err _ => false end).
    destruct (IH (move (fun _ => cast d) ip st) s) as (h & H1 & H2 & H3). exists (Move (fun _ => cast d) ip :: h). split; [constructor; [reflexivity|exact H1]|].
    split; [|exact H3]. intros k v. unfold follow, casts in *. cbn [fold_left]. apply H2.
  - cbn [run_ops run_op]. destruct (t_contig x).
    + destruct (load st s) as [s'|e] eqn:E.
      * destruct (IH st s') as (h & H1 & H2 & H3). exists (Call :: h). split; [constructor; [exact I|exact H1]|]. split; [exact H2|].
        cbn [history]. rewrite E. exact H3.
      * destruct (IH st s) as (h & H1 & H2 & H3). exists (Call :: h). split; [constructor; [exact I|exact H1]|]. split; [exact H2|].
        cbn [history]. rewrite E. reflexivity.
    + destruct (IH st s) as (h & H1 & H2 & H3). exists h. auto.
Qed.
Lemma casts_after l v : casts l v = cast (fold_left (fun d o => match o with To d' => d' | Forward _ => d end) l (t_dtype v)) v.
Proof.
  revert v. unfold casts. induction l as [|[d|x] l IH]; intros v; cbn [fold_left]; [now destruct v| |apply IH]. now rewrite IH.
Qed.
Lemma casts_buffer l w : casts l (from_numpy w) = buffer (dtype_after l) w.
Proof. apply casts_after. Qed.

(** The filters used by the next call of a module are the buffers of the final dtype. *)
Lemma torch1d_filters support p out s m l : Scattering1D support p out = Ok s -> ScatteringTorch1D support p out = Ok m ->
  exists st s1 s2 n, run_ops call1d l m = Ok (st, s1) /\ load1d st s1 = Ok (s2, n) /\ smap snd s2 = smap (buffer (dtype_after l)) s.
Proof.
  intros E1 E2. unfold ScatteringTorch1D in E2. rewrite E1 in E2. cbn [bind] in E2. destruct (register1d from_numpy s empty_store) as [[s0 n] st0] eqn:E3.
  injection E2 as <-. destruct (run_ops_history call1d l st0 s0) as (h & Hu & Hf & Hr).
  destruct (C51_module_is_image_1d from_numpy s s0 n st0 h ""%string E3 Hu) as (st1 & s1 & s2 & Eh & El & V).
  exists st1, s1, s2, n. split; [congruence|]. split; [exact El|]. rewrite V. unfold smap, fmap. 
  assert (G : forall w, follow h "" (from_numpy w) = buffer (dtype_after l) w) by (intros w; rewrite Hf; apply casts_buffer).
  f_equal.
  - f_equal. apply map_ext, G.
  - apply map_ext. intros f. f_equal. apply map_ext, G.
  - apply map_ext. intros f. f_equal. apply map_ext, G.
Qed.
Lemma torchj_filters support p out s m l : TimeFrequencyScattering support p out = Ok s -> TimeFrequencyScatteringTorch support p out = Ok m ->
  exists st s1 s2, run_ops loadj l m = Ok (st, s1) /\ loadj st s1 = Ok s2 /\ jmap snd s2 = jmap (buffer (dtype_after l)) s.
Proof.
  intros E1 E2. unfold TimeFrequencyScatteringTorch in E2. rewrite E1 in E2. cbn [bind] in E2. destruct (registerj from_numpy s empty_store) as [s0 st0] eqn:E3.
  injection E2 as <-. destruct (run_ops_history loadj l st0 s0) as (h & Hu & Hf & Hr).
  destruct (C51_module_is_image_joint from_numpy s s0 st0 h ""%string E3 Hu) as (st1 & s1 & s2 & Eh & El & V).
  exists st1, s1, s2. split; [congruence|]. split; [exact El|]. rewrite V. unfold jmap, smap, fmap.
  assert (G : forall w, follow h "" (from_numpy w) = buffer (dtype_after l) w) by (intros w; rewrite Hf; apply casts_buffer).
  f_equal; [f_equal| |]; try (f_equal; apply map_ext, G); apply map_ext; intros f; f_equal; apply map_ext, G.
Qed.
