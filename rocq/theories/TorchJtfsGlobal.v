(** The joint format with global averaging in time, where the torch transform fails. *)
From Coq Require Import String Reals ZArith List Bool Arith Lia Lra.
From Coquelicot Require Import Complex.
From Verif Require Import Base BaseProofs NdArray Backend Core1d Utils1d Frontend1d Jtfs JtfsFront ComplexOps NdProofs Construct1d
  Torch1d TorchRel TorchSim TorchStack TorchCore TorchJtfs.
Import ListNotations.
Local Open Scope nat_scope.
Local Open Scope res_scope.

(** scattering() up to the reshaping of the coefficients. *)
Section Pre.
Context {X W P : Type} (be : backend X W) (sgn : P -> Z).
Definition jpre (s : jtfs W P) (x : X) : res (avg * list nat * (path X * list (jpath X))) :=
  let b := t_base s in
  _ <- jcheck_runtime_args s ;;
  _ <- check_input (be_shape be x) ;;
  '(batch_shape, n) <- split_last (be_shape be x) ;;
  x <- be_reshape_input be x [n] ;;
  U_0 <- be_pad be x (s_pad_left b) (s_pad_right b) ;;
  log2_stride <- s_log2_stride b ;;
  a <- s_average b ;;
  log2_stride_fr <- t_log2_stride_fr s ;;
  a_fr <- t_average_fr s ;;
  U_gen <- joint_scattering be sgn U_0 (s_phi b) (s_psi1 b) (s_psi2 b) log2_stride (is_local_avg a)
             (t_phi_fr s) (t_psis_fr s) log2_stride_fr (is_local_avg a_fr) ;;
  ps <- average_and_format be false (s_phi b) log2_stride a (t_phi_fr s) log2_stride_fr a_fr
                 (s_out_type b) (t_format s) U_gen ;;
  Ok (a, batch_shape, ps).
Lemma jpaths_pre s x : jpaths be sgn s x =
  (r <- jpre s x ;; let '(a, batch, (p0, ps)) := r in
   p0 <- jfinish0 be s a batch p0 ;; S <- mapM (jfinish be s a batch) ps ;; Ok (p0, S)).
Proof.
  unfold jpaths, jpre. cbv zeta.
  repeat match goal with
  | |- context [bind ?e _] => lazymatch e with bind _ _ => fail | Ok _ => fail | _ => idtac end; destruct e as [?v|]; cbn [bind]; [|reflexivity]; try match goal with v : (_ * _)%type |- _ => destruct v end
  end; try reflexivity.
Qed.
End Pre.

Section Global.
Context {P : Type} (sgn : P -> Z).
Variable (d : fdtype).
Notation rep := (rep d). Notation crep := (crep d). Notation plain := (plain d). Notation frep := (frep d).
Notation nb := (numpy_backend complex_ops).
Notation tb := torch_backend.

Lemma jpre_sim (s : jtfs (nd C) P) s' k x t : tjrel d s s' -> plain k x t ->
  sim false (fun u v => fst u = fst v /\ s_average (t_base s) = Ok (fst (fst u)) /\ length (snd (fst u)) + 1 = k /\
     let a := fst (fst u) in
     (if match a with Global => true | _ => false end then prel (fun x t => rep 1 3 x t /\ last1 true x) (fst (snd u)) (fst (snd v)) else prel (rep 1 3) (fst (snd u)) (fst (snd v))) /\
     Forall2 (fun a' b => jrel (rep 1 4) a' b /\ last1 (match a with Global => true | _ => false end) (q_coef a')) (snd (snd u)) (snd (snd v)))
    (jpre nb sgn s x) (jpre tb sgn s' t).
Proof.
  intros Hs Hx. unfold jpre. pose proof (tj_base _ _ _ Hs) as Hb. rewrite <- (jcheck_same d _ _ Hs).
  eapply sim_bind; [apply sim_same|]. intros _ _ _.
  change (be_shape nb x) with (nd_shape x). change (be_shape tb t) with (t_shape t). rewrite (pl_shape Hx).
  eapply sim_bind; [apply sim_same|]. intros _ _ _.
  destruct (split_last (nd_shape x)) as [[batch n]|e] eqn:Esp; cbn [bind]; [|apply sim_err].
  assert (Hk : length batch + 1 = k).
  { apply split_last_inv in Esp. pose proof (pl_rank Hx) as G. rewrite Esp, app_length in G. exact G. }
  eapply sim_bind; [apply (reshape_input_sim d false k); exact Hx|]. intros y u Hy.
  rewrite <- (sr_left _ _ _ Hb), <- (sr_right _ _ _ Hb), <- (sr_stride _ _ _ Hb), <- (sr_avg _ _ _ Hb), <- (sr_out _ _ _ Hb), <- (tj_stride _ _ _ Hs), <- (tj_avg _ _ _ Hs), <- (tj_format _ _ _ Hs).
  eapply sim_bind; [apply (pad_sim d false 2); [exact Hy|now right]|]. intros U U' HU.
  eapply sim_bind; [apply sim_same|]. intros ls ? <-.
  destruct (s_average (t_base s)) as [a|e] eqn:Ea; cbn [bind]; [|apply sim_err].
  eapply sim_bind; [apply sim_same|]. intros lsf ? <-. eapply sim_bind; [apply sim_same|]. intros af ? <-.
  eapply sim_bind.
  { apply (joint_sim sgn d false U U' (s_phi (t_base s)) (s_phi (t_base s')) (s_psi1 (t_base s)) (s_psi1 (t_base s')) (s_psi2 (t_base s)) (s_psi2 (t_base s')) ls (is_local_avg a)
      (t_phi_fr s) (t_phi_fr s') (t_psis_fr s) (t_psis_fr s') lsf (is_local_avg af) HU); try apply Hb; try apply Hs. discriminate. }
  intros [p0 ps] [p0' ps'] [Hp0 Hps]. cbn [fst snd] in *.
  eapply (sim_bind _ (fun u v => (if match a with Global => true | _ => false end then prel (fun x t => rep 1 3 x t /\ last1 true x) (fst u) (fst v) else prel (rep 1 3) (fst u) (fst v)) /\
     Forall2 (fun a' b => jrel (rep 1 4) a' b /\ last1 (match a with Global => true | _ => false end) (q_coef a')) (snd u) (snd v))).
  { unfold average_and_format.
    eapply (sim_bind _ (fun u v => if match a with Global => true | _ => false end then prel (fun x t => rep 1 3 x t /\ last1 true x) u v else prel (rep 1 3) u v)).
    { destruct Hp0 as (Hc & Ej & En). destruct a.
      - apply sim_ok. split; [apply Hc|auto].
      - eapply sim_bind; [apply (average_sim d false 2); split; [apply Hc|now apply Hc]|]. intros c c' [Hcc Hl]. apply sim_ok.
        split; [|auto]. split; [apply Hcc|intros _; exact Hl].
      - apply sim_ok. split; [apply Hc|auto]. }
    intros q0 q0' Hq0. eapply sim_bind.
    { eapply (sim_mapM false); [exact Hps|]. intros p q [Hp Hgd]. apply (format_path_sim d false (s_phi (t_base s)) (s_phi (t_base s')) ls a (t_phi_fr s) (t_phi_fr s') lsf af (s_out_type (t_base s)) (t_format s) p q);
       [apply Hb|apply Hs|exact Hp|exact Hgd]. }
    intros l l' Hl. apply sim_ok. cbn [fst snd]. split; [exact Hq0|]. now apply Forall2_concat. }
  intros qs qs' [Hq0 Hqs]. apply sim_ok. cbn [fst snd]. auto.
Qed.

Lemma mapM_all_err {A B} (f : A -> res B) e l y : (forall a, In a l -> (exists b, f a = Ok b) \/ f a = Err e) -> In y l -> f y = Err e -> mapM f l = Err e.
Proof.
  induction l as [|a l IH]; intros H Hy E; [destruct Hy|]. cbn [mapM]. destruct (H a (or_introl eq_refl)) as [[b Eb]|Ea]; [|now rewrite Ea].
  rewrite Eb. cbn [bind]. destruct Hy as [->|Hy]; [congruence|]. rewrite IH; [reflexivity| |exact Hy|exact E]. intros a' Ha'. apply H. now right.
Qed.

(** If NumPy yields a path with several frequencies, torch raises RuntimeError. *)
Lemma joint_global_error (s : jtfs (nd C) P) s' k x t p0 ps q batch m : tjrel d s s' -> plain k x t ->
  s_average (t_base s) = Ok Global -> t_format s = "joint"%string ->
  jpaths nb sgn s x = Ok (p0, ps) -> In q ps -> nd_shape (q_coef q) = batch ++ [m; 1] -> prod batch <> 0 -> m <> 1 ->
  jtfs_scattering tb sgn s' t = Err RuntimeError.
Proof.
  intros Hs Hx Ea Ef H Hq Sq Hb Hm. rewrite jpaths_pre in H. unfold jtfs_scattering. rewrite jpaths_pre.
  pose proof (jpre_sim s s' k x t Hs Hx) as G.
  destruct (jpre nb sgn s x) as [[[a batch0] [r0 rs]]|]; [|discriminate]. cbn [bind] in H. destruct G as ([[a' batch0'] [r0' rs']] & -> & E & Ea' & Hk & H0 & Hrs).
  cbn [fst snd] in *. injection E as <- <-. rewrite Ea in Ea'. injection Ea' as <-. cbn [bind].
  inv_bind H. inv_bind H. injection H as <- <-.
  pose proof (jfinish0_sim d false s s' Global batch0 r0 r0' Hs H0) as G. rewrite E in G. destruct G as (c0 & -> & _). cbn [bind].
  assert (Et : forall r, jfinish tb s' Global batch0 r = (c <- t_reshape_output (q_coef r) batch0 2 ;; Ok (set_coef c r))).
  { intros r. unfold jfinish. rewrite <- (tj_format _ _ _ Hs), Ef. reflexivity. }
  apply mapM_ok in E0. destruct (Forall2_In_r _ _ _ _ E0 Hq) as (r & Hr & Er).
  destruct (Forall2_In_l _ _ _ _ Hrs Hr) as (r' & Hr' & Hrr & Hl).
  rewrite (mapM_all_err _ RuntimeError rs' r'); [reflexivity| |exact Hr'|].
  - intros b _. rewrite Et. unfold t_reshape_output. destruct (Nat.eqb _ _); [left|right]; cbn [bind]; eauto.
  - rewrite Et. unfold jfinish in Er. rewrite Ef in Er. cbn [bind] in Er. inv_bind Er. injection Er as <-. cbn [set_coef q_coef] in Sq.
    change (np_reshape_output (q_coef r) batch0 2 = Ok v1) in E1. unfold np_reshape_output, reshape in E1.
    destruct (Hl eq_refl) as (pre & Ep). pose proof (jr_coef _ _ _ Hrr) as Hc.
    destruct (rank_split2 _ _ (rp_rank Hc)) as (pre2 & m' & n' & E2 & _).
    assert (n' = 1). { rewrite E2 in Ep. change [m'; n'] with ([m'] ++ [n']) in Ep. rewrite app_assoc in Ep. now apply app_inj_tail in Ep as [_ ->]. }
    subst n'. rewrite E2, trailing_2 in E1. destruct (Nat.eqb_spec (prod (batch0 ++ [m'; 1])) (prod (pre2 ++ [m'; 1]))) as [E3|]; [|discriminate E1].
    injection E1 as <-. cbn [nd_shape] in Sq.
    assert (batch0 = batch /\ m' = m) as [-> ->].
    { change [m'; 1] with ([m'] ++ [1]) in Sq. change [m; 1] with ([m] ++ [1]) in Sq. rewrite !app_assoc in Sq. apply app_inj_tail in Sq as [Sq _].
      now apply app_inj_tail in Sq as [-> ->]. }
    unfold t_reshape_output. rewrite (rp_shape Hc), E2. rewrite <- app_assoc. cbn [app]. 
    change (pre2 ++ [m; 1; 1]) with (pre2 ++ [m] ++ [1; 1]). rewrite app_assoc, trailing_2.
    destruct (Nat.eqb_spec (prod (batch ++ [1; 1])) (prod ((pre2 ++ [m]) ++ [1; 1]))) as [E4|]; [|reflexivity]. exfalso.
    assert (prod ((pre2 ++ [m]) ++ [1; 1]) = prod (pre2 ++ [m; 1])). { rewrite <- app_assoc. cbn [app]. rewrite !prod_app. unfold prod. cbn. lia. }
    rewrite H, <- E3 in E4. rewrite !prod_app in E4. unfold prod in E4 at 2 4. cbn in E4. nia.
Qed.
End Global.
