(** The 1-D scattering transform with the torch backend simulates the one with the NumPy backend. *)
From Coq Require Import String Reals ZArith List Bool Arith Lia Lra.
From Coquelicot Require Import Complex.
From Verif Require Import Base BaseProofs NdArray Backend Core1d Utils1d Frontend1d ComplexOps NdProofs Construct1d
  Torch1d TorchRel TorchSim TorchStack.
Import ListNotations.
Local Open Scope nat_scope.
Local Open Scope res_scope.

Section Core.
Context {P : Type}.
Variable (d : fdtype) (st : bool).
Notation rep := (rep d). Notation crep := (crep d). Notation plain := (plain d). Notation frep := (frep d).
Notation nb := (numpy_backend complex_ops).
Notation tb := torch_backend.

(** Filter dictionaries with the same parameters and corresponding levels. *)
Record frel (f : Core1d.filter (nd C) P) (g : Core1d.filter tensor P) : Prop := {
  fr_levels : Forall2 frep (f_levels f) (f_levels g);
  fr_xi : f_xi f = f_xi g; fr_sigma : f_sigma f = f_sigma g; fr_j : f_j f = f_j g; fr_N : f_N f = f_N g
}.
Definition prel (Rl : nd C -> tensor -> Prop) (p : path (nd C)) (q : path tensor) : Prop :=
  Rl (p_coef p) (p_coef q) /\ p_j p = p_j q /\ p_n p = p_n q.
(** Coefficients yielded by the core: contiguous when they have not been averaged. *)
Definition orep (al : bool) (k : nat) (x : nd C) (t : tensor) : Prop := rep 1 k x t /\ (al = false -> t_contig t = true).

Lemma level_sim f g i : frel f g -> sim st frep (py_index (f_levels f) i) (py_index (f_levels g) i).
Proof. intros H. apply sim_py_index, H. Qed.

(** Multiplication by a filter and subsampling. *)
Lemma filter_sim {A B} (Rl : A -> B -> Prop) k x t f g i q F G : crep 2 (S k) x t -> frel f g ->
  (forall y u, crep 2 (S k) y u -> sim st Rl (F y) (G u)) ->
  sim st Rl (l <- py_index (f_levels f) i ;; c <- be_cdgmm nb x l ;; h <- be_subsample nb c q ;; F h)
            (l <- py_index (f_levels g) i ;; c <- be_cdgmm tb t l ;; h <- be_subsample tb c q ;; G h).
Proof.
  intros Hx Hf K. eapply sim_bind; [now apply level_sim|]. intros w w' Hw.
  eapply sim_bind; [now apply (cdgmm_sim d st k)|]. intros y u Hy.
  eapply sim_bind; [now apply (subsample_sim d st k)|]. exact K.
Qed.

Lemma order0_sim k phi phi' U U' Uh Uh' ls al : frel phi phi' -> crep 1 (S k) U U' -> crep 2 (S k) Uh Uh' ->
  sim st (prel (orep al (S k))) (order0 nb phi U Uh ls al) (order0 tb phi' U' Uh' ls al).
Proof.
  intros Hf HU HUh. unfold order0. destruct al.
  - eapply filter_sim; [exact HUh|exact Hf|]. intros y u Hy.
    eapply sim_bind; [now apply (irfft_sim d st (S k))|]. intros z v Hz. apply sim_ok. split; [|auto]. split; [exact Hz|discriminate].
  - apply sim_ok. split; [|auto]. split; [apply HU|intros _; apply HU].
Qed.

Lemma order1_modulus_sim k Uh Uh' f g k1 : crep 2 (S k) Uh Uh' -> frel f g ->
  sim st (crep 1 (S k)) (order1_modulus nb Uh f k1) (order1_modulus tb Uh' g k1).
Proof.
  intros HU Hf. unfold order1_modulus. eapply filter_sim; [exact HU|exact Hf|]. intros y u Hy.
  eapply sim_bind; [now apply (ifft_sim d st (S k))|]. intros z v Hz. now apply (modulus_sim d st (S k)).
Qed.

Lemma order2_sim k phi phi' Uh Uh' n1 j1 k1 ls al n2 f g : frel phi phi' -> crep 2 (S k) Uh Uh' -> frel f g ->
  sim st (Forall2 (prel (orep al (S k)))) (order2 nb phi Uh n1 j1 k1 ls al (n2, f)) (order2 tb phi' Uh' n1 j1 k1 ls al (n2, g)).
Proof.
  intros Hphi HU Hf. unfold order2. rewrite <- (fr_j _ _ Hf). destruct (j1 <? f_j f)%Z; [|apply sim_ok; constructor].
  cbv zeta. eapply filter_sim; [exact HU|exact Hf|]. intros y u Hy.
  eapply sim_bind; [now apply (ifft_sim d st (S k))|]. intros z v Hz.
  eapply sim_bind; [now apply (modulus_sim d st (S k))|]. intros m m' Hm. destruct al.
  - eapply sim_bind; [now apply (rfft_sim d st (S k))|]. intros h h' Hh.
    eapply filter_sim; [exact Hh|exact Hphi|]. intros y2 u2 Hy2.
    eapply sim_bind; [now apply (irfft_sim d st (S k))|]. intros z2 v2 Hz2. apply sim_ok. constructor; [|constructor].
    split; [|auto]. split; [exact Hz2|discriminate].
  - apply sim_ok. constructor; [|constructor]. split; [|auto]. split; [apply Hm|intros _; apply Hm].
Qed.

Lemma enum_rel {A B} (Rl : A -> B -> Prop) l l' i : Forall2 Rl l l' ->
  Forall2 (fun a b => fst a = fst b /\ Rl (snd a) (snd b)) (enum_from i l) (enum_from i l').
Proof. intros H. revert i. induction H; intros i; cbn [enum_from]; constructor; auto. Qed.

Lemma Forall2_concat {A B} (Rl : A -> B -> Prop) l l' : Forall2 (Forall2 Rl) l l' -> Forall2 Rl (concat l) (concat l').
Proof. intros H. induction H; cbn [concat]; [constructor|]. now apply Forall2_app. Qed.

Lemma order1_sim k phi phi' psi2s psi2s' Uh Uh' ls al np np' : frel phi phi' -> crep 2 (S k) Uh Uh' ->
  match psi2s, psi2s' with Some a, Some b => Forall2 frel a b | None, None => True | _, _ => False end ->
  fst np = fst np' -> frel (snd np) (snd np') ->
  sim st (Forall2 (prel (orep al (S k)))) (order1 nb phi psi2s Uh ls al np) (order1 tb phi' psi2s' Uh' ls al np').
Proof.
  intros Hphi HU H2 En Hf. destruct np as [n1 f], np' as [n1' g]. cbn [fst snd] in *. subst n1'. unfold order1.
  rewrite <- (fr_j _ _ Hf). cbv zeta. eapply sim_bind; [now apply (order1_modulus_sim k)|]. intros m m' Hm.
  set (k1 := if al then Z.min (f_j f) ls else f_j f).
  destruct psi2s as [psi2|], psi2s' as [psi2'|]; try contradiction.
  - rewrite orb_true_r. eapply sim_bind; [now apply (rfft_sim d st (S k))|]. intros h h' Hh.
    eapply (sim_bind _ (prel (orep al (S k)))).
    + destruct al.
      * eapply filter_sim; [exact Hh|exact Hphi|]. intros y u Hy.
        eapply sim_bind; [now apply (irfft_sim d st (S k))|]. intros z v Hz. apply sim_ok. split; [|auto]. split; [exact Hz|discriminate].
      * apply sim_ok. split; [|auto]. split; [apply Hm|intros _; apply Hm].
    + intros p p' Hp. eapply sim_bind.
      * eapply (sim_mapM st _ (Forall2 (prel (orep al (S k))))); [apply (enum_rel _ _ _ 0 H2)|]. intros [n2 f2] [n2' g2] [En2 Hf2]. cbn [fst snd] in *. subst n2'.
        now apply order2_sim.
      * intros ps ps' Hps. apply sim_ok. constructor; [exact Hp|]. now apply Forall2_concat.
  - rewrite orb_false_r. destruct al.
    + eapply sim_bind; [now apply (rfft_sim d st (S k))|]. intros h h' Hh.
      eapply (sim_bind _ (prel (orep true (S k)))).
      * eapply filter_sim; [exact Hh|exact Hphi|]. intros y u Hy.
        eapply sim_bind; [now apply (irfft_sim d st (S k))|]. intros z v Hz. apply sim_ok. split; [|auto]. split; [exact Hz|discriminate].
      * intros p p' Hp. apply sim_ok. constructor; [exact Hp|constructor].
    + cbn [bind]. apply sim_ok. constructor; [|constructor]. split; [|auto]. split; [apply Hm|intros _; apply Hm].
Qed.

Theorem scattering1d_sim k phi phi' psis psis' U U' ls al : frel phi phi' -> Forall2 (Forall2 frel) psis psis' ->
  crep 1 (S k) U U' ->
  sim st (Forall2 (prel (orep al (S k)))) (scattering1d nb U phi psis ls al) (scattering1d tb U' phi' psis' ls al).
Proof.
  intros Hphi Hpsis HU. unfold scattering1d. eapply sim_bind; [now apply (rfft_sim d st (S k))|]. intros h h' Hh.
  eapply sim_bind; [apply (order0_sim k phi phi' U U' h h' ls al Hphi HU Hh)|]. intros p0 p0' Hp0.
  eapply sim_bind; [now apply sim_py_index, Hpsis|]. intros psi1 psi1' H1. cbv zeta.
  eapply sim_bind.
  - eapply (sim_mapM st _ (Forall2 (prel (orep al (S k))))); [apply (enum_rel _ _ _ 0 H1)|]. intros np np' [En Hf]. apply order1_sim; [exact Hphi|exact Hh| |exact En|exact Hf].
    destruct Hpsis as [|a b l l' Ha [|a2 b2 l2 l2' Ha2 _]]; cbn [nth_error]; auto.
  - intros ps ps' Hps. apply sim_ok. constructor; [exact Hp0|]. now apply Forall2_concat.
Qed.

(** ** The frontend *)
(** Two Scattering1D objects with the same attributes and corresponding filters. *)
Record srel (s : scat1d (nd C) P) (s' : scat1d tensor P) : Prop := {
  sr_phi : frel (s_phi s) (s_phi s'); sr_psi1 : Forall2 frel (s_psi1 s) (s_psi1 s'); sr_psi2 : Forall2 frel (s_psi2 s) (s_psi2 s');
  sr_max_order : s_max_order s = s_max_order s'; sr_out : s_out_type s = s_out_type s'; sr_over : s_oversampling s = s_oversampling s';
  sr_left : s_pad_left s = s_pad_left s'; sr_right : s_pad_right s = s_pad_right s';
  sr_start : s_ind_start s = s_ind_start s'; sr_end : s_ind_end s = s_ind_end s';
  sr_stride : s_log2_stride s = s_log2_stride s'; sr_avg : s_average s = s_average s'
}.
(** Same container, same keys, corresponding coefficients. *)
Inductive out_rel (k : nat) : output (nd C) -> output tensor -> Prop :=
| or_array x t : plain (S k) x t -> out_rel k (OutArray x) (OutArray t)
| or_list l l' : Forall2 (prel (plain k)) l l' -> out_rel k (OutList l) (OutList l')
| or_dict l l' : Forall2 (fun a b => fst a = fst b /\ plain k (snd a) (snd b)) l l' -> out_rel k (OutDict l) (OutDict l').

Lemma finish_sim s s' a batch p p' : srel s s' -> prel (orep (match a with Local => true | _ => false end) 3) p p' ->
  sim st (prel (plain (length batch + 1))) (finish_path nb s a batch p) (finish_path tb s' a batch p').
Proof.
  intros Hs (Hc & Ej & En). unfold finish_path. rewrite <- En, <- Ej.
  rewrite <- (sr_stride _ _ Hs), <- (sr_over _ _ Hs), <- (sr_start _ _ Hs), <- (sr_end _ _ Hs).
  eapply sim_bind; [apply sim_same|]. intros r r' <-.
  assert (K : forall c c', prel (plain (length batch + 1)) (mk_path c (p_j p) (p_n p)) (mk_path c' (p_j p) (p_n p)) <-> plain (length batch + 1) c c').
  { intros c c'. unfold prel. cbn. tauto. }
  destruct a.
  - eapply sim_bind.
    + eapply sim_bind; [apply sim_same|]. intros i0 ? <-. eapply sim_bind; [apply sim_same|]. intros i1 ? <-.
      apply (unpad_sim d st 2). apply Hc.
    + intros c c' Hcc. cbv beta. eapply sim_bind; [apply (reshape_output_plain d st 3 c c' batch 1 Hcc)|]. intros y u Hy. apply sim_ok. apply K.
      destruct (rank_split _ _ (pl_rank Hcc)) as (pre & n & E & _). rewrite E, trailing_1, app_length in Hy. exact Hy.
  - eapply sim_bind; [apply (average_sim d st 2); split; [apply Hc|now apply Hc]|].
    intros c c' [Hcc (pre & E)]. eapply sim_bind; [apply (reshape_output_global d st 3 c c' batch pre (proj1 Hcc) E)|].
    intros y u Hy. apply sim_ok. now apply K.
  - eapply sim_bind.
    + eapply sim_bind; [apply sim_same|]. intros i0 ? <-. eapply sim_bind; [apply sim_same|]. intros i1 ? <-.
      apply (unpad_sim d st 2). apply Hc.
    + intros c c' Hcc. cbv beta. eapply sim_bind; [apply (reshape_output_plain d st 3 c c' batch 1 Hcc)|]. intros y u Hy. apply sim_ok. apply K.
      destruct (rank_split _ _ (pl_rank Hcc)) as (pre & n & E & _). rewrite E, trailing_1, app_length in Hy. exact Hy.
Qed.

Lemma dict_set_rel k n x t dd dd' : Forall2 (fun a b : list nat * _ => fst a = fst b /\ plain k (snd a) (snd b)) dd dd' -> plain k x t ->
  Forall2 (fun a b => fst a = fst b /\ plain k (snd a) (snd b)) (dict_set n x dd) (dict_set n t dd').
Proof.
  intros H Hx. induction H as [|[a x'] [b t'] dd dd' [E Hxt] H IH]; cbn [dict_set fst snd] in *.
  - constructor; [|constructor]. auto.
  - subst b. destruct (list_eq_dec Nat.eq_dec n a); constructor; auto.
Qed.
Lemma fold_dict_rel k l l' : Forall2 (prel (plain k)) l l' -> forall dd dd',
  Forall2 (fun a b : list nat * _ => fst a = fst b /\ plain k (snd a) (snd b)) dd dd' ->
  Forall2 (fun a b => fst a = fst b /\ plain k (snd a) (snd b))
    (fold_left (fun m p => dict_set (p_n p) (p_coef p) m) l dd) (fold_left (fun m p => dict_set (p_n p) (p_coef p) m) l' dd').
Proof.
  intros H. induction H as [|p p' l l' (Hp & _ & En) H IH]; intros dd dd' Hd; cbn [fold_left]; [exact Hd|].
  apply IH. rewrite En. now apply dict_set_rel.
Qed.
Lemma insert_rel {A B} (Rl : A -> B -> Prop) le le' x x' l l' : (forall a b a' b', Rl a a' -> Rl b b' -> le a b = le' a' b') ->
  Rl x x' -> Forall2 Rl l l' -> Forall2 Rl (insert le x l) (insert le' x' l').
Proof.
  intros Hle Hx H. induction H as [|y y' l l' Hy H IH]; cbn [insert]; [now repeat constructor|].
  rewrite (Hle x y x' y' Hx Hy). destruct (le' x' y'); repeat constructor; auto.
Qed.
Lemma isort_rel {A B} (Rl : A -> B -> Prop) le le' l l' : (forall a b a' b', Rl a a' -> Rl b b' -> le a b = le' a' b') ->
  Forall2 Rl l l' -> Forall2 Rl (isort le l) (isort le' l').
Proof. intros Hle H. induction H; cbn [isort]; [constructor|]. now apply insert_rel. Qed.

Lemma check_runtime_same s s' : srel s s' -> check_runtime_args s = check_runtime_args s'.
Proof. intros H. unfold check_runtime_args. now rewrite (sr_out _ _ H), (sr_avg _ _ H). Qed.

Theorem scattering_sim s s' k x t : srel s s' -> plain k x t ->
  sim st (out_rel k) (scattering nb s x) (scattering tb s' t).
Proof.
  intros Hs Hx. unfold scattering. rewrite <- (check_runtime_same _ _ Hs).
  eapply sim_bind; [apply sim_same|]. intros _ _ _.
  change (be_shape nb x) with (nd_shape x). change (be_shape tb t) with (t_shape t). rewrite (pl_shape Hx).
  eapply sim_bind; [apply sim_same|]. intros _ _ _.
  destruct (split_last (nd_shape x)) as [[batch n]|e] eqn:Esp; cbn [bind]; [|apply sim_err].
  assert (Hk : length batch + 1 = k).
  { apply split_last_inv in Esp. pose proof (pl_rank Hx) as G. rewrite Esp, app_length in G. exact G. }
  eapply sim_bind; [apply (reshape_input_sim d st k); exact Hx|]. intros y u Hy.
  rewrite <- (sr_left _ _ Hs), <- (sr_right _ _ Hs), <- (sr_stride _ _ Hs), <- (sr_avg _ _ Hs), <- (sr_out _ _ Hs).
  eapply sim_bind; [apply (pad_sim d st 2); [exact Hy|now right]|]. intros U U' HU.
  eapply sim_bind; [apply sim_same|]. intros ls ? <-. eapply sim_bind; [apply sim_same|]. intros a ? <-.
  eapply sim_bind.
  { apply (scattering1d_sim 2); [apply (sr_phi _ _ Hs)| |exact HU]. unfold psis_of. rewrite <- (sr_max_order _ _ Hs).
    assert (G : Forall2 (Forall2 frel) [s_psi1 s; s_psi2 s] [s_psi1 s'; s_psi2 s']).
    { constructor; [apply Hs|]. constructor; [apply Hs|constructor]. }
    revert G. generalize [s_psi1 s; s_psi2 s] [s_psi1 s'; s_psi2 s']. generalize (Z.to_nat (s_max_order s)). clear.
    intros n l l' H. revert n. induction H; intros [|n]; cbn [firstn]; constructor; auto. }
  intros gen gen' Hg. eapply sim_bind.
  { eapply (sim_mapM st _ (prel (plain (length batch + 1)))); [exact Hg|]. intros p p' Hp. now apply finish_sim. }
  rewrite Hk. intros ps ps' Hps.
  destruct (String.eqb (s_out_type s) "dict"); [apply sim_ok; constructor; apply fold_dict_rel; [exact Hps|constructor]|].
  assert (HS : Forall2 (prel (plain k)) (isort (fun p q => key_leb (p_n p) (p_n q)) ps) (isort (fun p q => key_leb (p_n p) (p_n q)) ps')).
  { apply isort_rel; [|exact Hps]. intros p q p' q' (_ & _ & ->) (_ & _ & ->). reflexivity. }
  destruct (String.eqb (s_out_type s) "array"); [|apply sim_ok; constructor; exact HS].
  eapply sim_bind.
  - apply (stack_plain d st k (-2) _ _ (length batch)); [|lia|lia].
    clear -HS. induction HS as [|p p' l l' (Hp & _) H IH]; cbn [map]; constructor; auto.
  - intros y2 u2 Hy2. apply sim_ok. now constructor.
Qed.
End Core.
