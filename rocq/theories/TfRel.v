(** Backends that refine the NumPy one: whenever a NumPy operation returns, so does theirs, with a corresponding value.  The
    1-D transform and the joint time-frequency transform then refine the NumPy ones. *)
From Coq Require Import String ZArith List Bool Arith Lia.
From Verif Require Import Base BaseProofs NdArray Backend Core1d Utils1d Frontend1d Jtfs JtfsFront Torch1d TorchRel TorchCore TorchJtfs.
Import ListNotations.
Local Open Scope nat_scope.
Local Open Scope res_scope.

Section Refine.
Context {K X P : Type} (o : ops K) (tb : backend X (nd K)).
(** [Q d k x t]: [t] stands for the array [x] of dtype [k], at precision [d]. *)
Variable Q : fdtype -> dtype -> nd K -> X -> Prop.
Notation nb := (numpy_backend o).
Notation sim := (TorchRel.sim false).
Notation filt := (Core1d.filter (nd K) P).

Record refines : Prop := {
  rf_shape : forall d k x t, Q d k x t -> be_shape tb t = nd_shape x;
  rf_rfft : forall d x t, Q d Real x t -> sim (Q F32 Complex) (be_rfft nb x) (be_rfft tb t);
  rf_cfft : forall d x t, Q d Complex x t -> sim (Q d Complex) (be_cfft nb x) (be_cfft tb t);
  rf_ifft : forall d x t, Q d Complex x t -> sim (Q d Complex) (be_ifft nb x) (be_ifft tb t);
  rf_irfft : forall d x t, Q d Complex x t -> sim (Q d Real) (be_irfft nb x) (be_irfft tb t);
  rf_cdgmm : forall d x t w, Q d Complex x t -> sim (Q d Complex) (be_cdgmm nb x w) (be_cdgmm tb t w);
  rf_subsample : forall d x t q, Q d Complex x t -> sim (Q d Complex) (be_subsample nb x q) (be_subsample tb t q);
  rf_modulus : forall d x t, Q d Complex x t -> sim (Q d Real) (be_modulus nb x) (be_modulus tb t);
  rf_average : forall d x t, Q d Real x t -> sim (Q d Real) (be_average_global nb x) (be_average_global tb t);
  rf_pad : forall d x t l r, Q d Real x t -> sim (Q d Real) (be_pad nb x l r) (be_pad tb t l r);
  rf_unpad : forall d x t a b, Q d Real x t -> sim (Q d Real) (be_unpad nb x a b) (be_unpad tb t a b);
  rf_reshape_input : forall d x t s, Q d Real x t -> sim (Q d Real) (be_reshape_input nb x s) (be_reshape_input tb t s);
  rf_reshape_output : forall d x t b n, Q d Real x t -> sim (Q d Real) (be_reshape_output nb x b n) (be_reshape_output tb t b n);
  rf_stack : forall d k l l' dim, Forall2 (Q d k) l l' -> sim (Q d k) (be_stack nb l dim) (be_stack tb l' dim);
  rf_pad_frequency : forall d k x t p, Q d k x t -> sim (Q d k) (be_pad_frequency nb x p) (be_pad_frequency tb t p);
  rf_swap : forall d k x t, Q d k x t -> sim (Q d k) (be_swap nb x) (be_swap tb t);
  rf_unpad_frequency : forall d x t n s, Q d Real x t -> length (nd_shape x) = 4 ->
    sim (Q d Real) (be_unpad_frequency nb x n s) (be_unpad_frequency tb t n s);
  rf_split : forall d x t, Q d Real x t -> sim (Forall2 (Q d Real)) (be_split_frequency nb x) (be_split_frequency tb t)
}.
Hypothesis H : refines.

Definition prel (Rl : nd K -> X -> Prop) (p : path (nd K)) (q : path X) : Prop :=
  Rl (p_coef p) (p_coef q) /\ p_j p = p_j q /\ p_n p = p_n q.

(** Multiplying by a level of a filter, then periodising. *)
Lemma filter_ref {A B} (Rl : A -> B -> Prop) d x t (f : filt) i q F G : Q d Complex x t ->
  (forall y u, Q d Complex y u -> sim Rl (F y) (G u)) ->
  sim Rl (l <- py_index (f_levels f) i ;; c <- be_cdgmm nb x l ;; s <- be_subsample nb c q ;; F s)
         (l <- py_index (f_levels f) i ;; c <- be_cdgmm tb t l ;; s <- be_subsample tb c q ;; G s).
Proof.
  intros Hx HF. eapply sim_bind; [apply sim_same|]. intros w ? <-. eapply sim_bind; [apply (rf_cdgmm H); exact Hx|].
  intros y u Hy. eapply sim_bind; [apply (rf_subsample H); exact Hy|]. exact HF.
Qed.

(** The precision of the zeroth order: that of the input unless it is low-pass filtered. *)
Definition prec0 (al : bool) (d : fdtype) : fdtype := if al then F32 else d.
Lemma order0_ref d (phi : filt) U U' Uh Uh' ls al : Q d Real U U' -> Q F32 Complex Uh Uh' ->
  sim (fun p q => prel (Q (prec0 al d) Real) p q /\ p_n p = []) (order0 nb phi U Uh ls al) (order0 tb phi U' Uh' ls al).
Proof.
  intros HU HUh. unfold order0. destruct al.
  - eapply filter_ref; [exact HUh|]. intros y u Hy. eapply sim_bind; [eapply (rf_irfft H); eassumption|]. intros z v Hz. apply sim_ok. now repeat split.
  - apply sim_ok. now repeat split.
Qed.
Lemma order1_modulus_ref d Uh Uh' (f : filt) k1 : Q d Complex Uh Uh' ->
  sim (Q d Real) (order1_modulus nb Uh f k1) (order1_modulus tb Uh' f k1).
Proof.
  intros HU. unfold order1_modulus. eapply filter_ref; [exact HU|]. intros y u Hy. eapply sim_bind; [eapply (rf_ifft H); eassumption|].
  intros z v Hz. eapply (rf_modulus H); eassumption.
Qed.
(** A path of order one or two: single precision, at least one index. *)
Definition high (p : path (nd K)) (q : path X) : Prop := prel (Q F32 Real) p q /\ p_n p <> [].
Lemma order2_ref (phi : filt) Uh Uh' n1 j1 k1 ls al np : Q F32 Complex Uh Uh' ->
  sim (Forall2 high) (order2 nb phi Uh n1 j1 k1 ls al np) (order2 tb phi Uh' n1 j1 k1 ls al np).
Proof.
  intros HU. unfold order2. destruct np as [n2 f]. cbv zeta. destruct (j1 <? f_j f)%Z; [|apply sim_ok; constructor].
  eapply filter_ref; [exact HU|]. intros y u Hy. eapply sim_bind; [eapply (rf_ifft H); eassumption|]. intros z v Hz.
  eapply sim_bind; [eapply (rf_modulus H); eassumption|]. intros m m' Hm. destruct al.
  - eapply sim_bind; [eapply (rf_rfft H); eassumption|]. intros h h' Hh. eapply filter_ref; [exact Hh|]. intros y2 u2 Hy2.
    eapply sim_bind; [eapply (rf_irfft H); eassumption|]. intros r r' Hr. apply sim_ok. constructor; [|constructor]. repeat split; [exact Hr|discriminate].
  - apply sim_ok. constructor; [|constructor]. repeat split; [exact Hm|discriminate].
Qed.
Lemma order1_ref (phi : filt) psi2s Uh Uh' ls al np : Q F32 Complex Uh Uh' ->
  sim (Forall2 high) (order1 nb phi psi2s Uh ls al np) (order1 tb phi psi2s Uh' ls al np).
Proof.
  intros HU. unfold order1. destruct np as [n1 f]. cbv zeta. eapply sim_bind; [eapply order1_modulus_ref; eassumption|]. intros m m' Hm.
  destruct (al || match psi2s with Some _ => true | None => false end) eqn:Eal.
  - eapply sim_bind; [eapply (rf_rfft H); eassumption|]. intros h h' Hh.
    eapply (sim_bind _ high).
    + destruct al.
      * eapply filter_ref; [exact Hh|]. intros y u Hy. eapply sim_bind; [eapply (rf_irfft H); eassumption|]. intros z v Hz. apply sim_ok.
        repeat split; [exact Hz|discriminate].
      * apply sim_ok. repeat split; [exact Hm|discriminate].
    + intros p p' Hp. eapply (sim_bind _ (Forall2 (Forall2 high))).
      * destruct psi2s as [psi2|]; [|apply sim_ok; constructor].
        eapply (sim_mapM false eq); [generalize (enumerate psi2); intros l; induction l; constructor; auto|].
        intros a ? <-. now apply order2_ref.
      * intros ps ps' Hps. apply sim_ok. constructor; [exact Hp|]. now apply Forall2_concat.
  - apply orb_false_iff in Eal as [-> Ep]. destruct psi2s; [discriminate|]. cbn [bind concat]. apply sim_ok. constructor; [|constructor].
    repeat split; [exact Hm|discriminate].
Qed.
(** Paths whose precision is single, except perhaps that of the zeroth order. *)
Definition anyp (d : fdtype) (p : path (nd K)) (q : path X) : Prop :=
  prel (Q (match p_n p with [] => d | _ => F32 end) Real) p q.
Theorem scattering1d_ref d (phi : filt) psis U U' ls al : Q d Real U U' ->
  sim (Forall2 (anyp (prec0 al d))) (scattering1d nb U phi psis ls al) (scattering1d tb U' phi psis ls al).
Proof.
  intros HU. unfold scattering1d. eapply sim_bind; [apply (rf_rfft H d); exact HU|]. intros h h' Hh.
  eapply sim_bind; [apply (order0_ref d phi U U' h h' ls al HU Hh)|]. intros p0 p0' [Hp0 En].
  eapply sim_bind; [apply sim_same|]. intros psi1 ? <-. cbv zeta.
  eapply (sim_bind _ (Forall2 (Forall2 high))).
  - eapply (sim_mapM false eq); [generalize (enumerate psi1); intros l; induction l; constructor; auto|]. intros a ? <-. now apply order1_ref.
  - intros ps ps' Hps. apply sim_ok. constructor.
    + unfold anyp. rewrite En. exact Hp0.
    + apply Forall2_concat in Hps. clear -Hps. induction Hps as [|p q l l' [Hp Hn] F IH]; constructor; auto. unfold anyp. destruct (p_n p); [congruence|exact Hp].
Qed.

(** ** The frontend *)
Lemma finish_ref d (s : scat1d (nd K) P) a batch p p' : anyp d p p' ->
  sim (anyp d) (finish_path nb s a batch p) (finish_path tb s a batch p').
Proof.
  intros (Hc & Ej & En). unfold finish_path. rewrite <- En, <- Ej. eapply sim_bind; [apply sim_same|]. intros r ? <-.
  eapply (sim_bind _ (Q (match p_n p with [] => d | _ => F32 end) Real)).
  - assert (G : sim (Q (match p_n p with [] => d | _ => F32 end) Real)
      (i0 <- dict_get (s_ind_start s) r ;; i1 <- dict_get (s_ind_end s) r ;; be_unpad nb (p_coef p) i0 i1)
      (i0 <- dict_get (s_ind_start s) r ;; i1 <- dict_get (s_ind_end s) r ;; be_unpad tb (p_coef p') i0 i1)).
    { eapply sim_bind; [apply sim_same|]. intros i0 ? <-. eapply sim_bind; [apply sim_same|]. intros i1 ? <-. apply (rf_unpad H). exact Hc. }
    destruct a; [exact G|apply (rf_average H); exact Hc|exact G].
  - intros c c' Hcc. eapply sim_bind; [apply (rf_reshape_output H); exact Hcc|]. intros y u Hy. apply sim_ok. unfold anyp. cbn [p_n]. now repeat split.
Qed.

(** Same container, same keys, corresponding coefficients; [d0] is the precision of the zeroth order. *)
Inductive out_ref (d0 : fdtype) : output (nd K) -> output X -> Prop :=
| orf_array x t : Q F32 Real x t -> out_ref d0 (OutArray x) (OutArray t)
| orf_list l l' : Forall2 (anyp d0) l l' -> out_ref d0 (OutList l) (OutList l')
| orf_dict l l' : Forall2 (fun a b => fst a = fst b /\ Q (match fst a with [] => d0 | _ => F32 end) Real (snd a) (snd b)) l l' ->
    out_ref d0 (OutDict l) (OutDict l').

Definition keyed (d0 : fdtype) (a : list nat * nd K) (b : list nat * X) : Prop :=
  fst a = fst b /\ Q (match fst a with [] => d0 | _ => F32 end) Real (snd a) (snd b).
Lemma dict_set_ref d0 n x t dd dd' : Forall2 (keyed d0) dd dd' -> Q (match n with [] => d0 | _ => F32 end) Real x t ->
  Forall2 (keyed d0) (dict_set n x dd) (dict_set n t dd').
Proof.
  intros F Hx. induction F as [|[a x'] [b t'] dd dd' [E Hxt] F IH]; cbn [dict_set fst snd] in *.
  - constructor; [|constructor]. now split.
  - subst b. destruct (list_eq_dec Nat.eq_dec n a) as [<-|]; constructor; auto; now split.
Qed.
Lemma fold_dict_ref d0 l l' : Forall2 (anyp d0) l l' -> forall dd dd', Forall2 (keyed d0) dd dd' ->
  Forall2 (keyed d0) (fold_left (fun m p => dict_set (p_n p) (p_coef p) m) l dd) (fold_left (fun m p => dict_set (p_n p) (p_coef p) m) l' dd').
Proof.
  intros F. induction F as [|p p' l l' (Hp & _ & En) F IH]; intros dd dd' Hd; cbn [fold_left]; [exact Hd|].
  apply IH. rewrite <- En. now apply dict_set_ref.
Qed.

(** The transform.  With global averaging and the container 'array', double precision input is left out: the zeroth order
    is then the only coefficient of double precision, which some backends cannot stack. *)
Theorem scattering_ref (s : scat1d (nd K) P) d x t : Q d Real x t ->
  (String.eqb (s_out_type s) "array" = true -> s_average s = Ok Local \/ d = F32) ->
  sim (out_ref (if match s_average s with Ok Local => true | _ => false end then F32 else d)) (scattering nb s x) (scattering tb s t).
Proof.
  intros Hx Hd. unfold scattering. eapply sim_bind; [apply sim_same|]. intros _ _ _.
  change (be_shape nb x) with (nd_shape x). rewrite (rf_shape H _ _ _ _ Hx).
  eapply sim_bind; [apply sim_same|]. intros _ _ _.
  destruct (split_last (nd_shape x)) as [[batch n]|e] eqn:Esp; cbn [bind]; [|apply sim_err].
  eapply sim_bind; [apply (rf_reshape_input H); exact Hx|]. intros y u Hy.
  eapply sim_bind; [apply (rf_pad H); exact Hy|]. intros U U' HU.
  eapply sim_bind; [apply sim_same|]. intros ls ? <-. destruct (s_average s) as [a|e]; cbn [bind]; [|apply sim_err].
  assert (Hpr : (if match a with Local => true | _ => false end then F32 else d) = prec0 (match a with Local => true | _ => false end) d) by reflexivity.
  rewrite Hpr. set (d0 := prec0 _ d).
  eapply sim_bind; [apply (scattering1d_ref d); exact HU|]. fold d0. intros gen gen' Hg.
  eapply sim_bind; [eapply (sim_mapM false _ (anyp d0)); [exact Hg|intros p p' Hp; now apply finish_ref]|]. intros ps ps' Hps.
  destruct (String.eqb (s_out_type s) "dict"); [apply sim_ok; constructor; apply fold_dict_ref; [exact Hps|constructor]|].
  assert (HS : Forall2 (anyp d0) (isort (fun p q => key_leb (p_n p) (p_n q)) ps) (isort (fun p q => key_leb (p_n p) (p_n q)) ps')).
  { apply isort_rel; [|exact Hps]. intros p q p' q' (_ & _ & ->) (_ & _ & ->). reflexivity. }
  destruct (String.eqb (s_out_type s) "array") eqn:Eo; [|apply sim_ok; constructor; exact HS].
  assert (Ed : d0 = F32). { destruct (Hd eq_refl) as [E|E]; [injection E as E; subst a; reflexivity|]. subst d d0. destruct a; reflexivity. }
  eapply sim_bind.
  - apply (rf_stack H F32 Real). clear -HS Ed. rewrite Ed in HS. clear Ed.
    induction HS as [|p p' l l' (Hp & _) F IH]; cbn [map]; constructor; auto. destruct (p_n p); exact Hp.
  - intros y2 u2 Hy2. apply sim_ok. now constructor.
Qed.
End Refine.
