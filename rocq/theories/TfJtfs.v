(** The joint time-frequency transform with a backend that refines the NumPy one. *)
From Coq Require Import String ZArith List Bool Arith Lia.
From Verif Require Import Base BaseProofs NdArray Backend NdProofs Core1d Utils1d Frontend1d Jtfs JtfsFront Torch1d TorchRel TorchCore TorchJtfs TfRel.
Import ListNotations.
Local Open Scope nat_scope.
Local Open Scope res_scope.

(** ** Ranks of the results of the NumPy operations *)
Section Ranks.
Context {K : Type} (o : ops K).
Definition rank (x : nd K) : nat := length (nd_shape x).
Lemma map_rows_rank d m f pre n (x : nd K) : split_last (nd_shape x) = Ok (pre, n) -> rank (map_rows d m f pre n x) = rank x.
Proof. intros E. apply split_last_inv in E. unfold rank. cbn [map_rows nd_shape]. rewrite E, !app_length. reflexivity. Qed.
Lemma fft_rows_rank d f (x y : nd K) : np_fft_rows d f x = Ok y -> rank y = rank x.
Proof.
  intros E. unfold np_fft_rows in E. inv_bind E. destruct v as [pre n]. destruct (Nat.eqb n 0); [discriminate|]. injection E as <-.
  now apply map_rows_rank.
Qed.
Lemma rfft_rank (x y : nd K) : np_rfft o x = Ok y -> rank y = rank x.
Proof. intros E. unfold np_rfft in E. inv_bind E. eapply fft_rows_rank; eassumption. Qed.
Lemma cfft_rank (x y : nd K) : np_cfft o x = Ok y -> rank y = rank x.
Proof. intros E. unfold np_cfft in E. inv_bind E. eapply fft_rows_rank; eassumption. Qed.
Lemma ifft_rank (x y : nd K) : np_ifft o x = Ok y -> rank y = rank x.
Proof. intros E. unfold np_ifft in E. inv_bind E. eapply fft_rows_rank; eassumption. Qed.
Lemma irfft_rank (x y : nd K) : np_irfft o x = Ok y -> rank y = rank x.
Proof. intros E. unfold np_irfft in E. inv_bind E. eapply fft_rows_rank; eassumption. Qed.
Lemma cdgmm_rank (x w y : nd K) : np_cdgmm o x w = Ok y -> rank y = rank x.
Proof.
  intros E. unfold np_cdgmm in E. destruct (negb _); [discriminate|]. destruct (list_eq_dec _ _ _); [|discriminate].
  destruct (_ && _); [discriminate|]. now injection E as <-.
Qed.
Lemma subsample_rank (x y : nd K) q : np_subsample o x q = Ok y -> rank y = rank x.
Proof.
  intros E. unfold np_subsample in E. inv_bind E. destruct q as [k|]; [|discriminate]. inv_bind E. destruct v0 as [pre n].
  destruct (k =? 0)%Z; [discriminate|]. destruct (k <? 0)%Z; [discriminate|]. destruct (Nat.eqb _ _); [|discriminate]. injection E as <-.
  now apply map_rows_rank.
Qed.
Lemma modulus_rank (x y : nd K) : np_modulus o x = Ok y -> rank y = rank x.
Proof. intros E. now injection E as <-. Qed.
Lemma average_rank (x y : nd K) : np_average_global o x = Ok y -> rank y = rank x.
Proof. intros E. unfold np_average_global in E. inv_bind E. inv_bind E. destruct v0 as [pre n]. injection E as <-. now apply map_rows_rank. Qed.
Lemma pad_frequency_rank (x y : nd K) p : np_pad_frequency o x p = Ok y -> rank y = rank x.
Proof.
  intros E. unfold np_pad_frequency in E. inv_bind E. destruct v as [pre n]. destruct (p <? 0)%Z; [discriminate|]. injection E as <-.
  now apply map_rows_rank.
Qed.
Lemma pad_rank (x y : nd K) l r : np_pad o x l r = Ok y -> rank y = rank x.
Proof.
  intros E. unfold np_pad in E. inv_bind E. destruct v as [pre n]. destruct (_ || _)%Z; [discriminate|]. destruct (_ || _)%Z; [discriminate|].
  injection E as <-. now apply map_rows_rank.
Qed.
Lemma reshape_input_rank (x y : nd K) s : np_reshape_input x s = Ok y -> rank y = S (S (length s)).
Proof.
  intros E. unfold np_reshape_input, reshape_infer in E. destruct (Nat.eqb _ 0); [discriminate|]. destruct (Nat.eqb _ 0); [|discriminate].
  now injection E as <-.
Qed.
Lemma split_last2_inv s pre m n : split_last2 s = Ok (pre, m, n) -> s = pre ++ [m; n].
Proof.
  intros E. unfold split_last2 in E. destruct (rev s) as [|a [|b r]] eqn:F; try discriminate. injection E as <- <- <-.
  rewrite <- (rev_involutive s), F. cbn [rev]. now rewrite <- app_assoc.
Qed.
Lemma swap_rank (x y : nd K) : np_swap o x = Ok y -> rank y = rank x.
Proof.
  intros E. unfold np_swap in E. inv_bind E. destruct v as [[pre m] n]. apply split_last2_inv in E0. injection E as <-.
  unfold rank. cbn [nd_shape]. now rewrite E0, !app_length.
Qed.
Lemma stack_rank (l : list (nd K)) dim y r : Forall (fun x => rank x = r) l -> stack l dim = Ok y -> rank y = S r.
Proof.
  intros F E. unfold stack in E. destruct l as [|x l]; [discriminate|]. apply Forall_inv in F. unfold rank in *.
  remember (x :: l) as xl eqn:Exl. destruct (_ <? 0)%Z; [discriminate|]. unfold stack_at in E. rewrite Exl in E. rewrite <- Exl in E.
  set (p := Z.to_nat _) in E. clearbody p. destruct (Nat.ltb_spec (length (nd_shape x)) p) as [|Hp]; [discriminate|]. destruct (forallb _ _); [|discriminate].
  injection E as <-. cbn [nd_shape]. rewrite app_length, firstn_length. cbn [length]. rewrite skipn_length. lia.
Qed.
End Ranks.

Section Jtfs.
Context {K X P : Type} (o : ops K) (tb : backend X (nd K)) (sgn : P -> Z).
Variable Q : fdtype -> dtype -> nd K -> X -> Prop.
Notation nb := (numpy_backend o).
Notation sim := (TorchRel.sim false).
Notation filt := (Core1d.filter (nd K) P).
Hypothesis H : refines o tb Q.

Definition RK (k : dtype) (r : nat) (x : nd K) (t : X) : Prop := Q F32 k x t /\ rank x = r.
Notation prel := (@TfRel.prel K X).

Lemma withrank {A} (k : dtype) (r : nat) (a : res (nd K)) (b : res X) (x : A) :
  sim (Q F32 k) a b -> (forall y, a = Ok y -> rank y = r) -> sim (RK k r) a b.
Proof. intros S G. destruct a as [y|e]; [|exact S]. destruct S as (u & E & Hu). exists u. split; [exact E|]. split; [exact Hu|]. now apply G. Qed.

Lemma rfft_r d r x t : Q d Real x t -> rank x = r -> sim (RK Complex r) (be_rfft nb x) (be_rfft tb t).
Proof. intros Hx <-. apply (withrank _ _ _ _ tt); [apply (rf_rfft _ _ _ H d); exact Hx|]. intros y E. eapply rfft_rank; exact E. Qed.
Lemma cfft_r r x t : RK Complex r x t -> sim (RK Complex r) (be_cfft nb x) (be_cfft tb t).
Proof. intros [Hx <-]. apply (withrank _ _ _ _ tt); [apply (rf_cfft _ _ _ H); exact Hx|]. intros y E. eapply cfft_rank; exact E. Qed.
Lemma ifft_r r x t : RK Complex r x t -> sim (RK Complex r) (be_ifft nb x) (be_ifft tb t).
Proof. intros [Hx <-]. apply (withrank _ _ _ _ tt); [apply (rf_ifft _ _ _ H); exact Hx|]. intros y E. eapply ifft_rank; exact E. Qed.
Lemma irfft_r r x t : RK Complex r x t -> sim (RK Real r) (be_irfft nb x) (be_irfft tb t).
Proof. intros [Hx <-]. apply (withrank _ _ _ _ tt); [apply (rf_irfft _ _ _ H); exact Hx|]. intros y E. eapply irfft_rank; exact E. Qed.
Lemma modulus_r r x t : RK Complex r x t -> sim (RK Real r) (be_modulus nb x) (be_modulus tb t).
Proof. intros [Hx <-]. apply (withrank _ _ _ _ tt); [apply (rf_modulus _ _ _ H); exact Hx|]. intros y E. eapply modulus_rank; exact E. Qed.
Lemma average_r r x t : RK Real r x t -> sim (RK Real r) (be_average_global nb x) (be_average_global tb t).
Proof. intros [Hx <-]. apply (withrank _ _ _ _ tt); [apply (rf_average _ _ _ H); exact Hx|]. intros y E. eapply average_rank; exact E. Qed.
Lemma swap_r k r x t : RK k r x t -> sim (RK k r) (be_swap nb x) (be_swap tb t).
Proof. intros [Hx <-]. apply (withrank _ _ _ _ tt); [apply (rf_swap _ _ _ H); exact Hx|]. intros y E. eapply swap_rank; exact E. Qed.
Lemma pad_frequency_r k r x t p : RK k r x t -> sim (RK k r) (be_pad_frequency nb x p) (be_pad_frequency tb t p).
Proof. intros [Hx <-]. apply (withrank _ _ _ _ tt); [apply (rf_pad_frequency _ _ _ H); exact Hx|]. intros y E. eapply pad_frequency_rank; exact E. Qed.
Lemma stack_r k r l l' dim : Forall2 (RK k r) l l' -> sim (RK k (S r)) (be_stack nb l dim) (be_stack tb l' dim).
Proof.
  intros F. apply (withrank _ _ _ _ tt).
  - apply (rf_stack _ _ _ H). induction F as [|x t l l' Hx F IH]; constructor; [apply Hx|exact IH].
  - intros y E. eapply stack_rank; [|exact E]. clear E. induction F as [|x t l l' Hx F IH]; constructor; [apply Hx|exact IH].
Qed.
Lemma filter_r {A B} (Rl : A -> B -> Prop) r x t (f : filt) i q F G : RK Complex r x t ->
  (forall y u, RK Complex r y u -> sim Rl (F y) (G u)) ->
  sim Rl (l <- py_index (f_levels f) i ;; c <- be_cdgmm nb x l ;; s <- be_subsample nb c q ;; F s)
         (l <- py_index (f_levels f) i ;; c <- be_cdgmm tb t l ;; s <- be_subsample tb c q ;; G s).
Proof.
  intros [Hx <-] HF. eapply sim_bind; [apply sim_same|]. intros w ? <-. eapply sim_bind.
  { apply (withrank Complex (rank x) _ _ tt); [apply (rf_cdgmm _ _ _ H); exact Hx|]. intros y E. eapply cdgmm_rank; exact E. }
  intros y u [Hy Ey]. eapply sim_bind.
  { apply (withrank Complex (rank x) _ _ tt); [apply (rf_subsample _ _ _ H); exact Hy|]. intros z E. rewrite <- Ey. eapply subsample_rank; exact E. }
  exact HF.
Qed.

Record jrel (Rl : nd K -> X -> Prop) (p : jpath (nd K)) (q : jpath X) : Prop := {
  jr_coef : Rl (q_coef p) (q_coef q); jr_j : q_j p = q_j q; jr_n : q_n p = q_n q; jr_max : q_n1_max p = q_n1_max q;
  jr_stride : q_n1_stride p = q_n1_stride q; jr_j_fr : q_j_fr p = q_j_fr q; jr_n_fr : q_n_fr p = q_n_fr q; jr_spin : q_spin p = q_spin q;
  jr_order : q_order p = q_order q
}.
Arguments jr_coef {Rl p q}. Arguments jr_j {Rl p q}. Arguments jr_n {Rl p q}. Arguments jr_max {Rl p q}. Arguments jr_stride {Rl p q}.
Arguments jr_j_fr {Rl p q}. Arguments jr_n_fr {Rl p q}. Arguments jr_spin {Rl p q}. Arguments jr_order {Rl p q}.
Definition wrel (Rl : nd K -> X -> Prop) (p : wpath (nd K)) (q : wpath X) : Prop :=
  Rl (w_coef p) (w_coef q) /\ w_j p = w_j q /\ w_n p = w_n q /\ w_n1_max p = w_n1_max q.
Lemma jrel_set (R1 R2 : nd K -> X -> Prop) p q c c' : jrel R1 p q -> R2 c c' -> jrel R2 (set_coef c p) (set_coef c' q).
Proof. intros [] Hc. constructor; assumption. Qed.
Lemma stride_rel Rl s p q : jrel Rl p q -> jrel Rl (set_stride s p) (set_stride s q).
Proof. intros []. constructor; auto. Qed.

Lemma order1_modulus_r r Uh Uh' (f : filt) k1 : RK Complex r Uh Uh' -> sim (RK Real r) (order1_modulus nb Uh f k1) (order1_modulus tb Uh' f k1).
Proof.
  intros HU. unfold order1_modulus. eapply filter_r; [exact HU|]. intros y u Hy. eapply sim_bind; [eapply ifft_r; exact Hy|].
  intros z v Hz. apply modulus_r. exact Hz.
Qed.
Lemma width1_r (phi : filt) Uh Uh' ls al f : RK Complex 3 Uh Uh' ->
  sim (fun a b => RK Complex 3 (fst (fst a)) (fst (fst b)) /\ snd (fst a) = snd (fst b) /\ RK Real 3 (snd a) (snd b))
    (width1 nb phi Uh ls al f) (width1 tb phi Uh' ls al f).
Proof.
  intros HU. unfold width1. cbv zeta. eapply sim_bind; [eapply order1_modulus_r; exact HU|]. intros m m' Hm.
  eapply sim_bind; [eapply rfft_r; apply Hm|]. intros h h' Hh. eapply filter_r; [exact Hh|]. intros y u Hy.
  eapply sim_bind; [eapply irfft_r; exact Hy|]. intros z v Hz. apply sim_ok. cbn [fst snd]. auto.
Qed.
Lemma width2_r (f : filt) ls al a b : RK Complex 3 (fst a) (fst b) -> snd a = snd b ->
  sim (Forall2 (RK Complex 3)) (width2 nb f ls al a) (width2 tb f ls al b).
Proof.
  intros Ha E. destruct a as [U j1], b as [U' j1']. cbn [fst snd] in *. subst j1'. unfold width2. cbv zeta.
  destruct (j1 <? f_j f)%Z; [|apply sim_ok; constructor]. eapply filter_r; [exact Ha|]. intros y u Hy.
  eapply sim_bind; [eapply ifft_r; exact Hy|]. intros z v Hz. apply sim_ok. constructor; [exact Hz|constructor].
Qed.
Lemma same_list {A} (l : list A) : Forall2 eq l l.
Proof. induction l; constructor; auto. Qed.
Lemma width2_all_r L L' ls al (np : nat * filt) : Forall2 (fun a b => RK Complex 3 (fst a) (fst b) /\ snd a = snd b) L L' ->
  sim (Forall2 (wrel (RK Complex 4))) (width2_all nb L ls al np) (width2_all tb L' ls al np).
Proof.
  intros HL. destruct np as [n2 f]. unfold width2_all. eapply sim_bind.
  { eapply (sim_mapM false _ (Forall2 (RK Complex 3))); [exact HL|]. intros a b [Ha Eb]. now apply width2_r. }
  intros ys ys' Hys. apply Forall2_concat in Hys. cbv zeta. rewrite <- (Forall2_len _ _ _ Hys).
  destruct (Nat.ltb _ _); [|apply sim_ok; constructor]. eapply sim_bind; [apply stack_r; exact Hys|].
  intros y u Hy. apply sim_ok. constructor; [|constructor]. repeat split; apply Hy.
Qed.

(** The precision of the zeroth order: that of the input unless it is low-pass filtered. *)
Lemma widthfirst_r d U U' (phi : filt) psi1 psi2 ls al : Q d Real U U' -> rank U = 3 ->
  sim (fun a b => (prel (Q (prec0 al d) Real) (fst (fst a)) (fst (fst b)) /\ p_n (fst (fst a)) = []) /\
                  wrel (RK Real 4) (snd (fst a)) (snd (fst b)) /\ Forall2 (wrel (RK Complex 4)) (snd a) (snd b))
    (widthfirst nb U phi psi1 psi2 ls al) (widthfirst tb U' phi psi1 psi2 ls al).
Proof.
  intros HU Hr. unfold widthfirst. eapply sim_bind; [eapply (rfft_r d); [exact HU|exact Hr]|]. intros h h' Hh.
  eapply sim_bind; [apply (order0_ref o tb Q H d phi U U' h h' ls al HU (proj1 Hh))|]. intros p0 p0' Hp0.
  eapply sim_bind.
  { eapply (sim_mapM false eq); [apply same_list|]. intros f ? <-. now apply width1_r. }
  intros l1 l1' Hl1. eapply sim_bind.
  { apply (stack_r Real 3). eapply Forall2_map2; [|exact Hl1]. intros a b (_ & _ & G). exact G. }
  intros S1 S1' HS1. eapply sim_bind.
  { eapply (sim_mapM false eq (Forall2 (wrel (RK Complex 4)))); [apply same_list|]. intros np ? <-. apply width2_all_r.
    eapply Forall2_map2; [|exact Hl1]. intros a b (Ha & Eb & _). split; assumption. }
  intros ys ys' Hys. apply sim_ok. cbn [fst snd]. split; [exact Hp0|]. split; [|now apply Forall2_concat].
  unfold wrel. cbn [w_coef w_j w_n w_n1_max]. rewrite (Forall2_len _ _ _ Hl1). auto.
Qed.

Lemma freq1_r wp wp' Y Y' lsf alf (np : nat * filt) : w_j wp = w_j wp' -> w_n wp = w_n wp' -> w_n1_max wp = w_n1_max wp' -> RK Complex 4 Y Y' ->
  sim (jrel (RK Complex 4)) (freq1 nb sgn wp Y lsf alf np) (freq1 tb sgn wp' Y' lsf alf np).
Proof.
  intros Ej En Em HY. destruct np as [n f]. unfold freq1. cbv zeta. eapply filter_r; [exact HY|]. intros y u Hy.
  eapply sim_bind; [eapply ifft_r; exact Hy|]. intros z v Hz. eapply sim_bind; [eapply swap_r; exact Hz|]. intros z2 v2 Hz2. apply sim_ok.
  rewrite Ej, En, Em. constructor; try reflexivity. exact Hz2.
Qed.
Lemma frequency_scattering_r (phi : filt) psis lsf alf spinned wp wp' : wrel (RK (if spinned : bool then Complex else Real) 4) wp wp' ->
  sim (Forall2 (jrel (RK Complex 4))) (frequency_scattering nb sgn phi psis lsf alf spinned wp) (frequency_scattering tb sgn phi psis lsf alf spinned wp').
Proof.
  intros (Hc & Ej & En & Em). unfold frequency_scattering. eapply sim_bind; [eapply swap_r; exact Hc|]. intros Y Y' HY. cbv zeta. rewrite <- Em.
  eapply sim_bind; [eapply pad_frequency_r; exact HY|]. intros Z Z' HZ.
  eapply (sim_bind _ (RK Complex 4)).
  { destruct spinned; [apply cfft_r; exact HZ|eapply rfft_r; apply HZ]. }
  intros V V' HV. eapply (sim_mapM false eq); [apply same_list|]. intros np ? <-. now apply freq1_r.
Qed.
Lemma joint_r d U U' (phi : filt) psi1 psi2 ls al phif psisf lsf alf : Q d Real U U' -> rank U = 3 ->
  sim (fun a b => (prel (Q (prec0 al d) Real) (fst a) (fst b) /\ p_n (fst a) = []) /\ Forall2 (jrel (RK Complex 4)) (snd a) (snd b))
    (joint_scattering nb sgn U phi psi1 psi2 ls al phif psisf lsf alf) (joint_scattering tb sgn U' phi psi1 psi2 ls al phif psisf lsf alf).
Proof.
  intros HU Hr. unfold joint_scattering. eapply sim_bind; [apply (widthfirst_r d U U' phi psi1 psi2 ls al HU Hr)|].
  intros [[p0 S1] Y2] [[p0' S1'] Y2'] (Hp0 & HS1 & HY2). cbn [fst snd] in *.
  eapply sim_bind; [apply (frequency_scattering_r phif psisf lsf alf false S1 S1' HS1)|]. intros F F' HF.
  eapply sim_bind.
  { eapply (sim_mapM false _ (Forall2 (jrel (RK Complex 4)))); [exact HY2|]. intros wp wp' Hwp. now apply (frequency_scattering_r phif psisf lsf alf true). }
  intros G G' HG. apply sim_ok. cbn [fst snd]. split; [exact Hp0|]. apply Forall2_app; [exact HF|]. now apply Forall2_concat.
Qed.

Lemma time_averaging_r (phi : filt) ls p q : jrel (RK Real 4) p q -> sim (jrel (RK Real 4)) (time_averaging nb phi ls p) (time_averaging tb phi ls q).
Proof.
  intros Hp. unfold time_averaging. rewrite <- (jr_j Hp). eapply sim_bind; [apply sim_same|]. intros kin ? <-. cbv zeta.
  eapply sim_bind; [eapply rfft_r; apply (jr_coef Hp)|]. intros h h' Hh. eapply filter_r; [exact Hh|]. intros y u Hy.
  eapply sim_bind; [eapply irfft_r; exact Hy|]. intros z v Hz. apply sim_ok. eapply jrel_set; [exact Hp|exact Hz].
Qed.
Lemma frequency_averaging_r (phi : filt) lsf af p q : jrel (RK Real 4) p q ->
  sim (jrel (RK Real 4)) (frequency_averaging nb phi lsf af p) (frequency_averaging tb phi lsf af q).
Proof.
  intros Hp. unfold frequency_averaging. rewrite <- (jr_j_fr Hp), <- (jr_max Hp). destruct af.
  - cbv zeta. eapply sim_bind; [eapply swap_r; apply (jr_coef Hp)|]. intros U U' HU. eapply sim_bind; [eapply rfft_r; apply HU|]. intros h h' Hh.
    eapply filter_r; [exact Hh|]. intros y u Hy. eapply sim_bind; [eapply irfft_r; exact Hy|]. intros z v Hz.
    eapply sim_bind; [eapply swap_r; exact Hz|]. intros w w' Hw. apply sim_ok. apply stride_rel. eapply jrel_set; [exact Hp|exact Hw].
  - eapply sim_bind; [eapply swap_r; apply (jr_coef Hp)|]. intros U U' HU. eapply sim_bind; [eapply average_r; exact HU|]. intros z v Hz.
    eapply sim_bind; [eapply swap_r; exact Hz|]. intros w w' Hw. apply sim_ok. apply stride_rel. eapply jrel_set; [exact Hp|exact Hw].
  - apply sim_ok. now apply stride_rel.
Qed.

Lemma time_formatting_r p q : jrel (Q F32 Real) p q ->
  sim (Forall2 (jrel (Q F32 Real))) (time_formatting nb false p) (time_formatting tb false q).
Proof.
  intros Hp. unfold time_formatting. rewrite <- (jr_max Hp), <- (jr_stride Hp).
  eapply sim_bind; [apply (rf_split _ _ _ H); apply (jr_coef Hp)|]. intros cl cl' Hcl.
  eapply sim_bind; [apply sim_same|]. intros n1s ? <-. eapply (sim_mapM false eq); [apply same_list|].
  intros [i n1] ? <-. eapply sim_bind; [apply sim_py_index; exact Hcl|]. intros c c' Hc. apply sim_ok. rewrite (jr_n Hp). destruct Hp. constructor; auto.
Qed.

Lemma format_path_r (phi : filt) ls a phif lsf af out fmt p q : jrel (RK Complex 4) p q ->
  sim (Forall2 (jrel (Q F32 Real))) (format_path nb false phi ls a phif lsf af out fmt p) (format_path tb false phi ls a phif lsf af out fmt q).
Proof.
  intros Hp. unfold format_path. eapply sim_bind; [eapply modulus_r; apply (jr_coef Hp)|]. intros c c' Hc. cbv zeta.
  assert (Hp1 : jrel (RK Real 4) (set_coef c p) (set_coef c' q)) by (eapply jrel_set; [exact Hp|exact Hc]).
  revert Hp1. generalize (set_coef c p) (set_coef c' q). clear p q c c' Hp Hc. intros p q Hp.
  eapply (sim_bind _ (jrel (RK Real 4))).
  { destruct a.
    - rewrite <- (jr_n Hp). destruct (Nat.ltb 1 _); [now apply time_averaging_r|now apply sim_ok].
    - eapply sim_bind; [eapply average_r; apply (jr_coef Hp)|]. intros c c' Hc. apply sim_ok. eapply jrel_set; [exact Hp|exact Hc].
    - now apply sim_ok. }
  clear p q Hp. intros p q Hp. eapply (sim_bind _ (jrel (RK Real 4))).
  { rewrite <- (jr_spin Hp). destruct af; [| |now apply sim_ok]; (destruct (q_spin p =? 0)%Z; [now apply sim_ok|now apply frequency_averaging_r]). }
  clear p q Hp. intros p q Hp. eapply (sim_bind _ (jrel (Q F32 Real))).
  { destruct (_ && _).
    - apply sim_ok. destruct Hp as [[Hc _]]. constructor; auto.
    - rewrite <- (jr_max Hp), <- (jr_stride Hp). destruct (jr_coef Hp) as [Hc Hr]. eapply sim_bind; [apply (rf_unpad_frequency _ _ _ H); [exact Hc|exact Hr]|].
      intros c c' Hcc. apply sim_ok. eapply jrel_set; [exact Hp|exact Hcc]. }
  clear p q Hp. intros p q Hp. destruct (String.eqb fmt "joint").
  - apply sim_ok. constructor; [|constructor]. rewrite (jr_n Hp). destruct Hp. constructor; auto.
  - destruct (String.eqb fmt "time"); [now apply time_formatting_r|apply sim_ok; constructor].
Qed.

Lemma jfinish0_r d (s : jtfs (nd K) P) a batch p q : prel (Q d Real) p q -> p_n p = [] ->
  sim (fun p q => prel (Q d Real) p q /\ p_n p = []) (jfinish0 nb s a batch p) (jfinish0 tb s a batch q).
Proof.
  intros (Hc & Ej & En) E0. unfold jfinish0.
  assert (G : forall rs, sim (Q d Real)
      (r <- rs ;; i0 <- dict_get (s_ind_start (t_base s)) r ;; i1 <- dict_get (s_ind_end (t_base s)) r ;; be_unpad nb (p_coef p) i0 i1)
      (r <- rs ;; i0 <- dict_get (s_ind_start (t_base s)) r ;; i1 <- dict_get (s_ind_end (t_base s)) r ;; be_unpad tb (p_coef q) i0 i1)).
  { intros rs. eapply sim_bind; [apply sim_same|]. intros r ? <-. eapply sim_bind; [apply sim_same|]. intros i0 ? <-.
    eapply sim_bind; [apply sim_same|]. intros i1 ? <-. apply (rf_unpad _ _ _ H). exact Hc. }
  eapply (sim_bind _ (Q d Real)); [destruct a; [apply G|now apply sim_ok|apply G]|]. intros c c' Hcc.
  eapply sim_bind; [apply (rf_reshape_output _ _ _ H); exact Hcc|]. intros y u Hy. apply sim_ok. now repeat split.
Qed.
Lemma jfinish_r (s : jtfs (nd K) P) a batch p q : jrel (Q F32 Real) p q ->
  sim (jrel (Q F32 Real)) (jfinish nb s a batch p) (jfinish tb s a batch q).
Proof.
  intros Hp. unfold jfinish. rewrite <- (jr_n Hp), <- (jr_j Hp).
  assert (G : forall rs, sim (Q F32 Real)
      (r <- rs ;; i0 <- dict_get (s_ind_start (t_base s)) r ;; i1 <- dict_get (s_ind_end (t_base s)) r ;; be_unpad nb (q_coef p) i0 i1)
      (r <- rs ;; i0 <- dict_get (s_ind_start (t_base s)) r ;; i1 <- dict_get (s_ind_end (t_base s)) r ;; be_unpad tb (q_coef q) i0 i1)).
  { intros rs. eapply sim_bind; [apply sim_same|]. intros r ? <-. eapply sim_bind; [apply sim_same|]. intros i0 ? <-.
    eapply sim_bind; [apply sim_same|]. intros i1 ? <-. apply (rf_unpad _ _ _ H). apply (jr_coef Hp). }
  eapply (sim_bind _ (Q F32 Real)); [destruct a; [apply G|apply sim_ok; apply (jr_coef Hp)|apply G]|]. intros c c' Hcc.
  eapply sim_bind; [apply (rf_reshape_output _ _ _ H); exact Hcc|]. intros y u Hy. apply sim_ok. eapply jrel_set; [exact Hp|exact Hy].
Qed.

Inductive jout_ref (d0 : fdtype) : joutput (nd K) -> joutput X -> Prop :=
| jrf_array x t : Q F32 Real x t -> jout_ref d0 (JArray x) (JArray t)
| jrf_list p0 p0' l l' : prel (Q d0 Real) p0 p0' -> Forall2 (jrel (Q F32 Real)) l l' -> jout_ref d0 (JList p0 l) (JList p0' l')
| jrf_dict l l' : Forall2 (fun a b => fst a = fst b /\ exists d, (d = F32 \/ d = d0) /\ Q d Real (snd a) (snd b)) l l' ->
    jout_ref d0 (JDict l) (JDict l').

Lemma jpaths_r (s : jtfs (nd K) P) d x t : Q d Real x t ->
  sim (fun a b => (prel (Q (if match s_average (t_base s) with Ok Local => true | _ => false end then F32 else d) Real) (fst a) (fst b) /\ p_n (fst a) = []) /\
                  Forall2 (jrel (Q F32 Real)) (snd a) (snd b))
    (jpaths nb sgn s x) (jpaths tb sgn s t).
Proof.
  intros Hx. unfold jpaths. eapply sim_bind; [apply sim_same|]. intros _ _ _.
  change (be_shape nb x) with (nd_shape x). rewrite (rf_shape _ _ _ H _ _ _ _ Hx).
  eapply sim_bind; [apply sim_same|]. intros _ _ _.
  destruct (split_last (nd_shape x)) as [[batch n]|e] eqn:Esp; cbn [bind]; [|apply sim_err].
  destruct (be_reshape_input nb x [n]) as [y|e] eqn:Ey; [|intros G; discriminate G].
  pose proof (rf_reshape_input _ _ _ H d x t [n] Hx) as G1. rewrite Ey in G1. destruct G1 as (u & -> & Hy). cbn [bind].
  assert (Ry : rank y = 3) by exact (reshape_input_rank _ _ _ Ey).
  destruct (be_pad nb y (s_pad_left (t_base s)) (s_pad_right (t_base s))) as [U|e] eqn:EU; [|intros G; discriminate G].
  pose proof (rf_pad _ _ _ H d y u (s_pad_left (t_base s)) (s_pad_right (t_base s)) Hy) as G2. rewrite EU in G2. destruct G2 as (U' & -> & HU). cbn [bind].
  assert (RU : rank U = 3). { rewrite <- Ry. eapply pad_rank. exact EU. }
  eapply sim_bind; [apply sim_same|]. intros ls ? <-. destruct (s_average (t_base s)) as [a|e] eqn:Ea; cbn [bind]; [|apply sim_err].
  eapply sim_bind; [apply sim_same|]. intros lsf ? <-. eapply sim_bind; [apply sim_same|]. intros af ? <-.
  eapply sim_bind; [apply (joint_r d U U' _ _ _ ls (is_local_avg a) _ _ lsf (is_local_avg af) HU RU)|].
  intros [p0 ps] [p0' ps'] [[Hp0 En0] Hps]. cbn [fst snd] in *.
  assert (Hpr : prec0 (is_local_avg a) d = if match a with Local => true | _ => false end then F32 else d) by (destruct a; reflexivity).
  rewrite <- Hpr. set (d0 := prec0 _ d) in *. clearbody d0.
  eapply (sim_bind _ (fun a b => (prel (Q d0 Real) (fst a) (fst b) /\ p_n (fst a) = []) /\ Forall2 (jrel (Q F32 Real)) (snd a) (snd b))).
  { unfold average_and_format. eapply (sim_bind _ (fun p q => prel (Q d0 Real) p q /\ p_n p = [])).
    { destruct Hp0 as (Hc & Ej & En). destruct a; [now apply sim_ok| |now apply sim_ok].
      eapply sim_bind; [apply (rf_average _ _ _ H); exact Hc|]. intros c c' Hcc. apply sim_ok. now repeat split. }
    intros q0 q0' Hq0. eapply sim_bind.
    { eapply (sim_mapM false); [exact Hps|]. intros p q Hp. apply format_path_r. exact Hp. }
    intros l l' Hl. apply sim_ok. cbn [fst snd]. split; [exact Hq0|]. now apply Forall2_concat. }
  intros [q0 qs] [q0' qs'] [[Hq0 Eq0] Hqs]. cbn [fst snd] in *.
  eapply sim_bind; [now apply (jfinish0_r d0 s a batch q0 q0')|]. intros r0 r0' Hr0.
  eapply sim_bind; [eapply (sim_mapM false); [exact Hqs|]; intros p q Hp; apply jfinish_r; exact Hp|].
  intros l l' Hl. apply sim_ok. cbn [fst snd]. split; [exact Hr0|exact Hl].
Qed.

Definition jkeyed (d0 : fdtype) (a : list nat * nd K) (b : list nat * X) : Prop :=
  fst a = fst b /\ exists d, (d = F32 \/ d = d0) /\ Q d Real (snd a) (snd b).
Lemma jdict_set_ref d0 n x t dd dd' : Forall2 (jkeyed d0) dd dd' -> (exists d, (d = F32 \/ d = d0) /\ Q d Real x t) ->
  Forall2 (jkeyed d0) (dict_set n x dd) (dict_set n t dd').
Proof.
  intros F Hx. induction F as [|[a x'] [b t'] dd dd' [E Hxt] F IH]; cbn [dict_set fst snd] in *.
  - constructor; [|constructor]. now split.
  - subst b. destruct (list_eq_dec Nat.eq_dec n a) as [<-|]; constructor; auto; now split.
Qed.
Lemma jfold_dict_ref d0 l l' : Forall2 (jrel (Q F32 Real)) l l' -> forall dd dd', Forall2 (jkeyed d0) dd dd' ->
  Forall2 (jkeyed d0) (fold_left (fun m p => dict_set (q_n p) (q_coef p) m) l dd) (fold_left (fun m p => dict_set (q_n p) (q_coef p) m) l' dd').
Proof.
  intros F. induction F as [|p p' l l' Hp F IH]; intros dd dd' Hd; cbn [fold_left]; [exact Hd|].
  apply IH. rewrite <- (jr_n Hp). apply jdict_set_ref; [exact Hd|]. exists F32. split; [now left|apply (jr_coef Hp)].
Qed.

(** The joint transform: with global averaging in time, the container 'array' and the format 'time', double precision
    input is left out. *)
Theorem jtfs_ref (s : jtfs (nd K) P) d x t : Q d Real x t ->
  (String.eqb (s_out_type (t_base s)) "array" = true -> String.eqb (t_format s) "joint" = false -> s_average (t_base s) = Ok Local \/ d = F32) ->
  sim (jout_ref (if match s_average (t_base s) with Ok Local => true | _ => false end then F32 else d)) (jtfs_scattering nb sgn s x) (jtfs_scattering tb sgn s t).
Proof.
  intros Hx Hd. unfold jtfs_scattering. eapply sim_bind; [apply (jpaths_r s d x t Hx)|].
  intros [p0 l] [p0' l'] [[Hp0 En0] Hl]. cbn [fst snd] in *. unfold jcontainer. set (d0 := if match s_average (t_base s) with Ok Local => true | _ => false end then F32 else d) in *.
  assert (Hc : Forall2 (Q F32 Real) (map q_coef l) (map q_coef l')) by (eapply Forall2_map2; [|exact Hl]; intros a b Hab; apply Hab).
  destruct (String.eqb (s_out_type _) "array").
  - destruct (String.eqb (t_format s) "joint").
    + eapply sim_bind; [apply (rf_stack _ _ _ H); exact Hc|]. intros y u Hy. apply sim_ok. now constructor.
    + assert (Ed : d0 = F32). { subst d0. destruct (Hd eq_refl eq_refl) as [E | ->]; [rewrite E; reflexivity|]. destruct (s_average (t_base s)) as [[| |]|]; reflexivity. }
      rewrite Ed in Hp0. eapply sim_bind; [apply (rf_stack _ _ _ H F32 Real); constructor; [apply Hp0|exact Hc]|]. intros y u Hy. apply sim_ok. now constructor.
  - destruct (String.eqb (s_out_type _) "dict").
    + apply sim_ok. constructor. apply jfold_dict_ref; [exact Hl|]. destruct Hp0 as (H0 & _ & En). rewrite <- En.
      apply jdict_set_ref; [constructor|]. exists d0. split; [now right|exact H0].
    + apply sim_ok. now constructor.
Qed.
End Jtfs.
