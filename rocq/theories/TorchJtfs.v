(** The joint time-frequency scattering with the torch backend simulates the one with the NumPy backend wherever the
    latter returns, except for the format 'joint' with global averaging in time. *)
From Coq Require Import String Reals ZArith List Bool Arith Lia Lra.
From Coquelicot Require Import Complex.
From Verif Require Import Base BaseProofs NdArray Backend Core1d Utils1d Frontend1d Jtfs JtfsFront ComplexOps NdProofs Construct1d
  Torch1d TorchRel TorchSim TorchStack TorchCore.
Import ListNotations.
Local Open Scope nat_scope.
Local Open Scope res_scope.

Section Jtfs.
Context {P : Type} (sgn : P -> Z).
Variable (d : fdtype) (st : bool).
Notation rep := (rep d). Notation crep := (crep d). Notation plain := (plain d). Notation frep := (frep d).
Notation nb := (numpy_backend complex_ops).
Notation tb := torch_backend.
Notation frel := (frel (P := P) d). Notation orep := (orep d). Notation sim := (sim st).

Definition wrel (Rl : nd C -> tensor -> Prop) (p : wpath (nd C)) (q : wpath tensor) : Prop :=
  Rl (w_coef p) (w_coef q) /\ w_j p = w_j q /\ w_n p = w_n q /\ w_n1_max p = w_n1_max q.
Record jrel (Rl : nd C -> tensor -> Prop) (p : jpath (nd C)) (q : jpath tensor) : Prop := {
  jr_coef : Rl (q_coef p) (q_coef q); jr_j : q_j p = q_j q; jr_n : q_n p = q_n q; jr_max : q_n1_max p = q_n1_max q;
  jr_stride : q_n1_stride p = q_n1_stride q; jr_j_fr : q_j_fr p = q_j_fr q; jr_n_fr : q_n_fr p = q_n_fr q;
  jr_spin : q_spin p = q_spin q; jr_order : q_order p = q_order q
}.
Lemma jrel_set (R1 R2 : nd C -> tensor -> Prop) p q c c' : jrel R1 p q -> R2 c c' -> jrel R2 (set_coef c p) (set_coef c' q).
Proof. intros [] H. constructor; assumption. Qed.
Lemma jrel_imp (R1 R2 : nd C -> tensor -> Prop) p q : (forall x t, R1 x t -> R2 x t) -> jrel R1 p q -> jrel R2 p q.
Proof. intros H []. constructor; auto. Qed.

Definition keeps {A} (f : res A) (Q : A -> Prop) : Prop := forall y, f = Ok y -> Q y.
Lemma sim_keeps {A B} (Rl : A -> B -> Prop) Q a b : sim Rl a b -> keeps a Q -> sim (fun x y => Rl x y /\ Q x) a b.
Proof. intros H K. destruct a as [x|e]; [|exact H]. destruct H as (y & E & Hy). exists y. split; [exact E|]. split; [exact Hy|]. now apply K. Qed.

(** A NumPy path has at least one frequency, and its frequency stride is not negative. *)
Definition fpos (x : nd C) : Prop := exists pre m n, nd_shape x = pre ++ [m; n] /\ m <> 0.
Definition good (p : jpath (nd C)) : Prop :=
  fpos (q_coef p) /\ (0 <= q_n1_max p)%Z /\ (forall s, q_n1_stride p = PInt s -> (0 <= s)%Z).
(** All axes but the last are the same. *)
Definition pres (x y : nd C) : Prop := exists pre n n', nd_shape x = pre ++ [n] /\ nd_shape y = pre ++ [n'].
Lemma pres_fpos x y : pres x y -> fpos x -> fpos y.
Proof.
  intros (pre & n & n' & Ex & Ey) (pre' & m & k & Ex' & Hm). rewrite Ex in Ex'. change [m; k] with ([m] ++ [k]) in Ex'. rewrite app_assoc in Ex'.
  apply app_inj_tail in Ex' as [-> _]. exists pre', m, n'. split; [|exact Hm]. now rewrite Ey, <- app_assoc.
Qed.
Lemma pres_shape x y z : nd_shape x = nd_shape y -> pres y z -> pres x z.
Proof. intros E (pre & n & n' & A & B). exists pre, n, n'. split; congruence. Qed.
Lemma pow2_nonneg k s : pow2 k = PInt s -> (0 <= s)%Z.
Proof. unfold pow2. destruct (_ <? _)%Z; intros E; try discriminate; injection E as <-; apply Z.pow_nonneg; lia. Qed.
Lemma fft_rows_shape dd f (x y : nd C) : np_fft_rows dd f x = Ok y -> nd_shape y = nd_shape x /\ exists pre n, nd_shape x = pre ++ [n] /\ n <> 0.
Proof.
  unfold np_fft_rows. intros H. inv_bind H. destruct v as [pre n]. apply split_last_inv in E. destruct (Nat.eqb_spec n 0); [discriminate|]. injection H as <-.
  cbn [map_rows nd_shape]. split; [now rewrite E|]. exists pre, n. auto.
Qed.
Lemma rfft_shape (x y : nd C) : np_rfft complex_ops x = Ok y -> nd_shape y = nd_shape x /\ exists pre n, nd_shape x = pre ++ [n] /\ n <> 0.
Proof. unfold np_rfft. intros H. inv_bind H. eapply fft_rows_shape, H. Qed.
Lemma irfft_shape (x y : nd C) : np_irfft complex_ops x = Ok y -> nd_shape y = nd_shape x /\ exists pre n, nd_shape x = pre ++ [n] /\ n <> 0.
Proof. unfold np_irfft. intros H. inv_bind H. eapply fft_rows_shape, H. Qed.
Lemma ifft_shape (x y : nd C) : np_ifft complex_ops x = Ok y -> nd_shape y = nd_shape x /\ exists pre n, nd_shape x = pre ++ [n] /\ n <> 0.
Proof. unfold np_ifft. intros H. inv_bind H. eapply fft_rows_shape, H. Qed.
Lemma cdgmm_shape (x w y : nd C) : np_cdgmm complex_ops x w = Ok y -> nd_shape y = nd_shape x.
Proof. unfold np_cdgmm. destruct (negb _); [discriminate|]. destruct (list_eq_dec _ _ _); [|discriminate]. destruct (_ && _); [discriminate|]. intros H. injection H as <-. reflexivity. Qed.
Lemma subsample_pres (x y : nd C) k : np_subsample complex_ops x k = Ok y -> pres x y.
Proof.
  unfold np_subsample. intros H. inv_bind H. destruct k as [k|]; [|discriminate]. inv_bind H. destruct v0 as [pre n]. apply split_last_inv in E0.
  destruct (k =? 0)%Z; [discriminate|]. destruct (k <? 0)%Z; [discriminate|]. destruct (Nat.eqb _ _); [|discriminate]. injection H as <-.
  cbn [map_rows nd_shape]. exists pre, n, (n / Z.to_nat k). auto.
Qed.
Lemma average_pres (x y : nd C) : np_average_global complex_ops x = Ok y -> pres x y.
Proof. unfold np_average_global. intros H. inv_bind H. inv_bind H. destruct v0 as [pre n]. apply split_last_inv in E0. injection H as <-. exists pre, n, 1. auto. Qed.
Lemma swap_shape (x y : nd C) : np_swap complex_ops x = Ok y -> exists pre m n, nd_shape x = pre ++ [m; n] /\ nd_shape y = pre ++ [n; m].
Proof.
  unfold np_swap. intros H. inv_bind H. destruct v as [[pre m] n]. injection H as <-. cbn [nd_shape]. exists pre, m, n. split; [|reflexivity].
  unfold split_last2 in E. destruct (rev (nd_shape x)) as [|a [|b r]] eqn:Er; try discriminate. injection E as <- <- <-.
  rewrite <- (rev_involutive (nd_shape x)), Er. cbn [rev]. now rewrite <- app_assoc.
Qed.
(** Swapping an array whose last axis is not empty. *)
Lemma swap_fpos (x y : nd C) pre n : np_swap complex_ops x = Ok y -> nd_shape x = pre ++ [n] -> n <> 0 -> fpos y.
Proof.
  intros H E Hn. destruct (swap_shape _ _ H) as (pre' & m & n' & Ex & Ey). exists pre', n', m. split; [exact Ey|].
  rewrite Ex in E. change [m; n'] with ([m] ++ [n']) in E. rewrite app_assoc in E. apply app_inj_tail in E as [_ ->]. exact Hn.
Qed.

Lemma freq1_good wp X lsf alf np p : (0 <= w_n1_max wp)%Z -> freq1 nb sgn wp X lsf alf np = Ok p -> good p.
Proof.
  intros Hm H. destruct np as [n f]. unfold freq1 in H. cbv zeta in H. inv_bind H. inv_bind H. inv_bind H. inv_bind H. inv_bind H. injection H as <-.
  destruct (ifft_shape _ _ E2) as (S1 & pre & k & S2 & Hk). split; [|split]; cbn [q_coef q_n1_max q_n1_stride].
  - apply (swap_fpos v2 v3 pre k E3); [now rewrite S1|exact Hk].
  - exact Hm.
  - apply pow2_nonneg.
Qed.
Lemma frequency_scattering_good phi psis lsf alf spinned wp l : (0 <= w_n1_max wp)%Z -> frequency_scattering nb sgn phi psis lsf alf spinned wp = Ok l -> Forall good l.
Proof.
  intros Hm H. unfold frequency_scattering in H. inv_bind H. cbv zeta in H. inv_bind H. inv_bind H. apply mapM_ok in H.
  apply Forall_forall. intros p Hp. destruct (Forall2_In_r _ _ _ _ H Hp) as (np & _ & E2). now apply freq1_good in E2.
Qed.
Lemma width2_all_max (L : list (nd C * Z)) ls al (np : nat * filter (nd C) P) l : width2_all nb L ls al np = Ok l -> Forall (fun w => (0 <= w_n1_max w <= Z.of_nat (length L))%Z) l.
Proof.
  intros H. destruct np as [n f]. unfold width2_all in H. inv_bind H. cbv zeta in H. destruct (Nat.ltb _ _); [|injection H as <-; constructor].
  inv_bind H. injection H as <-. constructor; [|constructor]. cbn [w_n1_max]. split; [lia|]. apply inj_le. clear E0 v0. apply mapM_ok in E.
  induction E as [|a y L ys Ha E IH]; cbn [concat length]; [lia|]. rewrite app_length.
  assert (length y <= 1). { destruct a as [U j1]. unfold width2 in Ha. cbv zeta in Ha. destruct (_ <? _)%Z; [|injection Ha as <-; cbn; lia].
    inv_bind Ha. inv_bind Ha. inv_bind Ha. inv_bind Ha. injection Ha as <-. cbn. lia. }
  lia.
Qed.
Lemma widthfirst_max U phi psi1 psi2 ls al r : widthfirst nb U phi psi1 psi2 ls al = Ok r ->
  let ok := fun w : wpath (nd C) => (0 <= w_n1_max w <= Z.of_nat (length (psi1 : list (filter (nd C) P))))%Z in ok (snd (fst r)) /\ Forall ok (snd r).
Proof.
  intros H ok. unfold widthfirst in H. inv_bind H. inv_bind H. inv_bind H. inv_bind H. inv_bind H. injection H as <-. cbn [fst snd].
  apply mapM_length in E1. unfold ok. cbn [w_n1_max]. rewrite E1. split; [lia|]. apply mapM_ok in E3. apply Forall_concat.
  apply Forall_forall. intros l Hl. destruct (Forall2_In_r _ _ _ _ E3 Hl) as (np & _ & E4). apply width2_all_max in E4. now rewrite map_length, E1 in E4.
Qed.
Lemma time_averaging_good (phi : filter (nd C) P) ls p q : good p -> time_averaging nb phi ls p = Ok q -> good q.
Proof.
  intros (G1 & G2 & G3) H. unfold time_averaging in H. inv_bind H. cbv zeta in H. inv_bind H. inv_bind H. inv_bind H. inv_bind H. inv_bind H. injection H as <-.
  split; [|split; [exact G2|exact G3]]. cbn [set_coef q_coef]. apply (pres_fpos (q_coef p)); [|exact G1].
  destruct (rfft_shape _ _ E0) as [S0 _]. pose proof (cdgmm_shape _ _ _ E2) as S2. pose proof (subsample_pres _ _ _ E3) as (pre & n & n' & A & B).
  destruct (irfft_shape _ _ E4) as [S4 _]. exists pre, n, n'. split; congruence.
Qed.
Lemma frequency_averaging_good (phi : filter (nd C) P) lsf af p q : good p -> frequency_averaging nb phi lsf af p = Ok q -> good q.
Proof.
  intros (G1 & G2 & G3) H. unfold frequency_averaging in H. destruct af; cbv zeta in H.
  - inv_bind H. inv_bind H. inv_bind H. inv_bind H. inv_bind H. inv_bind H. inv_bind H. injection H as <-.
    destruct (irfft_shape _ _ E4) as (S4 & pre & n & A & Hn). split; [|split; [exact G2|]].
    + apply (swap_fpos v4 v5 pre n E5); [congruence|exact Hn].
    + cbn [q_n1_stride set_stride]. apply pow2_nonneg.
  - inv_bind H. inv_bind H. inv_bind H. injection H as <-. split; [|split; [exact G2|]].
    + unfold np_average_global in E0. change (np_average_global complex_ops v = Ok v0) in E0. unfold np_average_global in E0. inv_bind E0. inv_bind E0. destruct v3 as [pre n]. injection E0 as <-.
      apply (swap_fpos _ v1 pre 1 E1); [reflexivity|discriminate].
    + cbn [q_n1_stride set_stride]. intros s E2. injection E2 as <-. exact G2.
  - injection H as <-. split; [exact G1|]. split; [exact G2|]. cbn [q_n1_stride set_stride]. apply pow2_nonneg.
Qed.
Lemma unpad_good p c : good p -> np_unpad_frequency (q_coef p) (q_n1_max p) (q_n1_stride p) = Ok c -> good (set_coef c p).
Proof.
  intros ((pre & m & n & Ex & Hm) & G2 & G3) H. split; [|split; [exact G2|exact G3]]. cbn [set_coef q_coef]. unfold np_unpad_frequency in H.
  destruct (q_n1_stride p) as [s|] eqn:Es; [|discriminate]. specialize (G3 s eq_refl). destruct (Z.eqb_spec s 0) as [|Hs]; [discriminate|].
  rewrite Ex, split_last2_snoc in H. cbn [bind] in H. cbv zeta in H. match type of H with Ok ?a = Ok ?b => assert (Hc : a = b) by congruence end. clear H. subst c. cbn [nd_shape]. eexists _, _, n. split; [reflexivity|].
  assert (Hd : (0 <= q_n1_max p / s)%Z) by (apply Z.div_pos; lia). revert Hd. generalize (q_n1_max p / s)%Z. intros. assert (Z.to_nat (1 + z) <> 0) by lia. lia.
Qed.

Lemma width1_sim phi phi' Uh Uh' ls al f g : frel phi phi' -> crep 2 3 Uh Uh' -> frel f g ->
  sim (fun a b => crep 2 3 (fst (fst a)) (fst (fst b)) /\ snd (fst a) = snd (fst b) /\ rep 1 3 (snd a) (snd b))
    (width1 nb phi Uh ls al f) (width1 tb phi' Uh' ls al g).
Proof.
  intros Hphi HU Hf. unfold width1. rewrite <- (fr_j _ _ _ Hf). cbv zeta.
  eapply sim_bind; [now apply (order1_modulus_sim d st 2)|]. intros m m' Hm.
  eapply sim_bind; [now apply (rfft_sim d st 3)|]. intros h h' Hh.
  eapply (filter_sim d st _ 2); [exact Hh|exact Hphi|]. intros y u Hy.
  eapply sim_bind; [now apply (irfft_sim d st 3)|]. intros z v Hz. apply sim_ok. cbn [fst snd]. auto.
Qed.

Lemma width2_sim f g ls al a b : frel f g -> crep 2 3 (fst a) (fst b) -> snd a = snd b ->
  sim (Forall2 (crep 2 3)) (width2 nb f ls al a) (width2 tb g ls al b).
Proof.
  intros Hf Ha E. destruct a as [U j1], b as [U' j1']. cbn [fst snd] in *. subst j1'. unfold width2. rewrite <- (fr_j _ _ _ Hf).
  cbv zeta. destruct (j1 <? f_j f)%Z; [|apply sim_ok; constructor].
  eapply (filter_sim d st _ 2); [exact Ha|exact Hf|]. intros y u Hy.
  eapply sim_bind; [now apply (ifft_sim d st 3)|]. intros z v Hz. apply sim_ok. constructor; [exact Hz|constructor].
Qed.

Lemma Forall2_map2 {A B A' B'} (Rl : A -> A' -> Prop) (Rl' : B -> B' -> Prop) f g l l' :
  (forall a a', Rl a a' -> Rl' (f a) (g a')) -> Forall2 Rl l l' -> Forall2 Rl' (map f l) (map g l').
Proof. intros H F. induction F; cbn [map]; constructor; auto. Qed.

Lemma width2_all_sim L L' ls al np np' : Forall2 (fun a b => crep 2 3 (fst a) (fst b) /\ snd a = snd b) L L' ->
  fst np = fst np' -> frel (snd np) (snd np') ->
  sim (Forall2 (wrel (crep 2 4))) (width2_all nb L ls al np) (width2_all tb L' ls al np').
Proof.
  intros HL En Hf. destruct np as [n2 f], np' as [n2' g]. cbn [fst snd] in *. subst n2'. unfold width2_all.
  eapply sim_bind.
  { eapply (sim_mapM st _ (Forall2 (crep 2 3))); [exact HL|]. intros a b [Ha Eb]. now apply width2_sim. }
  intros ys ys' Hys. apply Forall2_concat in Hys. cbv zeta. rewrite <- (Forall2_len _ _ _ Hys).
  destruct (Nat.ltb _ _); [|apply sim_ok; constructor].
  eapply sim_bind; [apply (stack_rep d st 2 3 2)|].
  - eapply Forall2_impl_in; [|exact Hys]. intros a b _ _ Hab. apply Hab.
  - now right.
  - lia.
  - intros y u Hy. apply sim_ok. constructor; [|constructor]. rewrite (fr_j _ _ _ Hf). repeat split; try reflexivity; apply Hy.
Qed.

Lemma widthfirst_sim U U' phi phi' psi1 psi1' psi2 psi2' ls al : crep 1 3 U U' -> frel phi phi' -> Forall2 frel psi1 psi1' -> Forall2 frel psi2 psi2' ->
  sim (fun a b => prel (orep al 3) (fst (fst a)) (fst (fst b)) /\ wrel (crep 1 4) (snd (fst a)) (snd (fst b)) /\ Forall2 (wrel (crep 2 4)) (snd a) (snd b))
    (widthfirst nb U phi psi1 psi2 ls al) (widthfirst tb U' phi' psi1' psi2' ls al).
Proof.
  intros HU Hphi H1 H2. unfold widthfirst. eapply sim_bind; [now apply (rfft_sim d st 3)|]. intros h h' Hh.
  eapply sim_bind; [apply (order0_sim d st 2 phi phi' U U' h h' ls al Hphi HU Hh)|]. intros p0 p0' Hp0.
  eapply sim_bind.
  { eapply (sim_mapM st); [exact H1|]. intros f g Hf. now apply (width1_sim phi phi' h h' ls al f g). }
  intros l1 l1' Hl1. eapply sim_bind.
  { apply (stack_rep d st 1 3 2); [|now left|lia]. eapply Forall2_map2; [|exact Hl1]. intros a b (_ & _ & H). exact H. }
  intros S1 S1' HS1. eapply sim_bind.
  { eapply (sim_mapM st _ (Forall2 (wrel (crep 2 4)))); [apply (enum_rel _ _ _ 0 H2)|]. intros np np' [En Hf]. apply width2_all_sim; [|exact En|exact Hf].
    eapply Forall2_map2; [|exact Hl1]. intros a b (Ha & Eb & _). split; assumption. }
  intros ys ys' Hys. apply sim_ok. cbn [fst snd]. split; [exact Hp0|]. split; [|now apply Forall2_concat].
  unfold wrel. cbn [w_coef w_j w_n w_n1_max]. rewrite (Forall2_len _ _ _ Hl1). auto.
Qed.

Lemma freq1_sim wp wp' X X' lsf alf np np' : w_j wp = w_j wp' -> w_n wp = w_n wp' -> w_n1_max wp = w_n1_max wp' -> crep 2 4 X X' ->
  fst np = fst np' -> frel (snd np) (snd np') ->
  sim (jrel (crep 2 4)) (freq1 nb sgn wp X lsf alf np) (freq1 tb sgn wp' X' lsf alf np').
Proof.
  intros Ej Ewn Em HX En Hf. destruct np as [n f], np' as [n' g]. cbn [fst snd] in *. subst n'. unfold freq1.
  rewrite <- (fr_j _ _ _ Hf). cbv zeta. eapply (filter_sim d st _ 3); [exact HX|exact Hf|]. intros y u Hy.
  eapply sim_bind; [now apply (ifft_sim d st 4)|]. intros z v Hz.
  eapply sim_bind; [apply (swap_sim d st 2 2); apply Hz|]. intros z2 v2 Hz2. apply sim_ok.
  rewrite Ej, Ewn, Em, (fr_xi _ _ _ Hf). constructor; try reflexivity. exact Hz2.
Qed.

Lemma filter_rel {A B} (Rl : A -> B -> Prop) f g l l' : (forall a b, Rl a b -> f a = g b) -> Forall2 Rl l l' ->
  Forall2 Rl (List.filter f l) (List.filter g l').
Proof. intros H F. induction F as [|a b l l' Ha F IH]; cbn [List.filter]; [constructor|]. rewrite (H a b Ha). destruct (g b); [constructor|]; auto. Qed.

Lemma frequency_scattering_sim phi phi' psis psis' lsf alf spinned wp wp' : frel phi phi' -> Forall2 frel psis psis' ->
  wrel (crep (if spinned : bool then 2 else 1) 4) wp wp' -> (st = true -> (w_n1_max wp <= f_N phi)%Z) ->
  sim (Forall2 (jrel (crep 2 4))) (frequency_scattering nb sgn phi psis lsf alf spinned wp) (frequency_scattering tb sgn phi' psis' lsf alf spinned wp').
Proof.
  intros Hphi Hpsis (Hc & Ej & En & Em) Hpad. unfold frequency_scattering.
  eapply sim_bind; [apply (swap_sim d st (if spinned then 2 else 1) 2); apply Hc|]. intros X X' HX. cbv zeta. rewrite <- (fr_N _ _ _ Hphi), <- Em.
  eapply sim_bind; [apply (pad_frequency_sim d st (if spinned then 2 else 1) 3); [apply HX|intros Hst; specialize (Hpad Hst); lia]|]. intros Y Y' HY.
  eapply (sim_bind _ (crep 2 4)).
  { destruct spinned; [now apply (cfft_sim d st 4)|now apply (rfft_sim d st 4)]. }
  intros Z Z' HZ. eapply (sim_mapM st _ (jrel (crep 2 4))).
  - apply (enum_rel frel _ _ 0). destruct spinned; [exact Hpsis|]. apply filter_rel; [|exact Hpsis]. intros a b Hab. now rewrite (fr_xi _ _ _ Hab).
  - intros np np' [Ei Hf]. now apply freq1_sim.
Qed.

Lemma joint_sim U U' phi phi' psi1 psi1' psi2 psi2' ls al phif phif' psisf psisf' lsf alf : crep 1 3 U U' -> frel phi phi' ->
  Forall2 frel psi1 psi1' -> Forall2 frel psi2 psi2' -> frel phif phif' -> Forall2 frel psisf psisf' ->
  (st = true -> (Z.of_nat (length psi1) <= f_N phif)%Z) ->
  sim (fun a b => prel (orep al 3) (fst a) (fst b) /\ Forall2 (fun p q => jrel (crep 2 4) p q /\ good p) (snd a) (snd b))
    (joint_scattering nb sgn U phi psi1 psi2 ls al phif psisf lsf alf) (joint_scattering tb sgn U' phi' psi1' psi2' ls al phif' psisf' lsf alf).
Proof.
  intros HU Hphi H1 H2 Hpf Hps Hbins. unfold joint_scattering.
  eapply sim_bind; [apply (sim_keeps _ (fun r => (0 <= w_n1_max (snd (fst r)) <= Z.of_nat (length psi1))%Z /\ Forall (fun w => (0 <= w_n1_max w <= Z.of_nat (length psi1))%Z) (snd r)) _ _ (widthfirst_sim U U' phi phi' psi1 psi1' psi2 psi2' ls al HU Hphi H1 H2)); intros r Hr; apply (widthfirst_max _ _ _ _ _ _ _ Hr)|].
  intros [[p0 S1] Y2] [[p0' S1'] Y2'] ((Hp0 & HS1 & HY2) & M1 & M2). cbn [fst snd] in *.
  assert (FS : forall spinned w w', wrel (crep (if spinned : bool then 2 else 1) 4) w w' -> (0 <= w_n1_max w <= Z.of_nat (length psi1))%Z ->
    sim (Forall2 (fun p q => jrel (crep 2 4) p q /\ good p)) (frequency_scattering nb sgn phif psisf lsf alf spinned w) (frequency_scattering tb sgn phif' psisf' lsf alf spinned w')).
  { intros spinned w w' Hw Hm. eapply sim_weaken; [|apply (sim_keeps _ (Forall good) _ _ (frequency_scattering_sim phif phif' psisf psisf' lsf alf spinned w w' Hpf Hps Hw ltac:(intros Hst; specialize (Hbins Hst); lia)))].
    - intros l l' [F G]. revert G. induction F as [|p q l l' Hpq F IH]; intros G; constructor; inversion G; subst; auto.
    - intros y Hy. apply (frequency_scattering_good _ _ _ _ _ _ _ (proj1 Hm) Hy). }
  eapply sim_bind; [apply (FS false S1 S1' HS1 M1)|]. intros F F' HF.
  eapply sim_bind.
  { eapply (sim_mapM st (fun w w' => wrel (crep 2 4) w w' /\ (0 <= w_n1_max w <= Z.of_nat (length psi1))%Z) (Forall2 (fun p q => jrel (crep 2 4) p q /\ good p))).
    - clear - HY2 M2. revert M2. induction HY2; intros M; constructor; inversion M; subst; auto.
    - intros wp wp' [Hwp Hm]. now apply (FS true). }
  intros G G' HG. apply sim_ok. cbn [fst snd]. split; [exact Hp0|]. apply Forall2_app; [exact HF|]. now apply Forall2_concat.
Qed.

Lemma time_averaging_sim phi phi' ls p q : frel phi phi' -> jrel (crep 1 4) p q ->
  sim (jrel (rep 1 4)) (time_averaging nb phi ls p) (time_averaging tb phi' ls q).
Proof.
  intros Hphi Hp. unfold time_averaging. rewrite <- (jr_j _ _ _ Hp). eapply sim_bind; [apply sim_same|]. intros kin ? <-. cbv zeta.
  eapply sim_bind; [apply (rfft_sim d st 4); apply Hp|]. intros h h' Hh.
  eapply (filter_sim d st _ 3); [exact Hh|exact Hphi|]. intros y u Hy.
  eapply sim_bind; [now apply (irfft_sim d st 4)|]. intros z v Hz. apply sim_ok. eapply jrel_set; [exact Hp|exact Hz].
Qed.

Lemma set_stride_rel Rl s p q : jrel Rl p q -> jrel Rl (set_stride s p) (set_stride s q).
Proof. intros []. constructor; auto. Qed.

(** The last axis of a path averaged globally in time has length one; it is not touched by averaging in frequency. *)
Definition last1 (g : bool) (x : nd C) : Prop := g = true -> exists pre, nd_shape x = pre ++ [1].

Lemma np_swap_shape (x y : nd C) pre m n : nd_shape x = pre ++ [m; n] -> np_swap complex_ops x = Ok y -> nd_shape y = pre ++ [n; m].
Proof. intros Hs H. unfold np_swap in H. rewrite Hs, split_last2_snoc in H. cbn [bind] in H. now injection H as <-. Qed.

Lemma swap_sim_shape c x t pre m n : rep c 4 x t -> nd_shape x = pre ++ [m; n] ->
  sim (fun y u => crep c 4 y u /\ nd_shape y = pre ++ [n; m]) (np_swap complex_ops x) (t_swap t).
Proof. intros H Hs. apply sim_keeps; [now apply (swap_sim d st c 2)|]. intros y Hy. now apply (np_swap_shape x y pre m n). Qed.

Lemma frequency_averaging_sim g phi phi' lsf af p q : frel phi phi' -> jrel (rep 1 4) p q -> last1 g (q_coef p) -> af <> NoAvg ->
  sim (fun a b => jrel (rep 1 4) a b /\ last1 g (q_coef a)) (frequency_averaging nb phi lsf af p) (frequency_averaging tb phi' lsf af q).
Proof.
  intros Hphi Hp Hl Haf. destruct (rank_split2 _ _ (rp_rank (jr_coef _ _ _ Hp))) as (pre & m & n & Ex & Hpre).
  assert (Hn : g = true -> n = 1).
  { intros Hg. destruct (Hl Hg) as (pre' & E). rewrite Ex in E. change [m; n] with ([m] ++ [n]) in E. rewrite app_assoc in E.
    apply app_inj_tail in E. tauto. }
  assert (Last : forall y : nd C, (exists m', nd_shape y = pre ++ [m'; n]) -> last1 g y).
  { intros y (m' & E) Hg. exists (pre ++ [m']). rewrite E, (Hn Hg), <- app_assoc. reflexivity. }
  unfold frequency_averaging. rewrite <- (jr_j_fr _ _ _ Hp), <- (jr_max _ _ _ Hp). destruct af as [| |]; [| |contradiction].
  - rewrite <- (fr_j _ _ _ Hphi). cbv zeta. eapply sim_bind; [apply (swap_sim_shape 1 _ _ pre m n (jr_coef _ _ _ Hp) Ex)|].
    intros U U' [HU EU]. eapply (sim_bind _ (fun y u => crep 2 4 y u /\ nd_shape y = pre ++ [n; m])).
    { apply sim_keeps; [now apply (rfft_sim d st 4)|]. intros y Hy. change (np_rfft complex_ops U = Ok y) in Hy. unfold np_rfft in Hy. inv_bind Hy.
      unfold np_fft_rows in Hy. inv_bind Hy. destruct v0 as [pre0 n0]. destruct (Nat.eqb n0 0); [discriminate|]. injection Hy as <-.
      cbn [map_rows nd_shape]. apply split_last_inv in E0. congruence. }
    intros h h' [Hh Eh]. eapply sim_bind; [apply (level_sim d st _ _ _ Hphi)|]. intros w w' Hw.
    eapply (sim_bind _ (fun y u => crep 2 4 y u /\ nd_shape y = pre ++ [n; m])).
    { apply sim_keeps; [now apply (cdgmm_sim d st 3)|]. intros y Hy. change (np_cdgmm complex_ops h w = Ok y) in Hy. unfold np_cdgmm in Hy.
      destruct (negb _); [discriminate|]. destruct (list_eq_dec _ _ _); [|discriminate]. destruct (_ && _); [discriminate|]. injection Hy as <-. exact Eh. }
    intros c c' [Hc Ec]. eapply (sim_bind _ (fun y u => crep 2 4 y u /\ exists m', nd_shape y = pre ++ [n; m'])).
    { apply sim_keeps; [now apply (subsample_sim d st 3)|]. intros y Hy.
      change (np_subsample complex_ops c (pow2 (lsf - Z.min (q_j_fr p) (f_j phi))) = Ok y) in Hy. unfold np_subsample in Hy. inv_bind Hy.
      destruct (pow2 _) as [kk|]; [|discriminate]. rewrite Ec in Hy. change [n; m] with ([n] ++ [m]) in Hy. rewrite app_assoc, split_last_snoc in Hy. cbn [bind] in Hy.
      destruct (kk =? 0)%Z; [discriminate|]. destruct (kk <? 0)%Z; [discriminate|]. destruct (Nat.eqb _ _); [|discriminate]. injection Hy as <-.
      cbn [map_rows nd_shape]. rewrite <- app_assoc. eexists. reflexivity. }
    intros s s' [Hs (m' & Es)]. eapply (sim_bind _ (fun y u => rep 1 4 y u /\ nd_shape y = pre ++ [n; m'])).
    { apply sim_keeps; [now apply (irfft_sim d st 4)|]. intros y Hy. change (np_irfft complex_ops s = Ok y) in Hy. unfold np_irfft in Hy. inv_bind Hy.
      unfold np_fft_rows in Hy. inv_bind Hy. destruct v0 as [pre0 n0]. destruct (Nat.eqb n0 0); [discriminate|]. injection Hy as <-.
      cbn [map_rows nd_shape]. apply split_last_inv in E0. congruence. }
    intros r r' [Hr Er]. eapply sim_bind; [apply (swap_sim_shape 1 _ _ pre n m' Hr Er)|]. intros z z' [Hz Ez]. apply sim_ok. split.
    + apply set_stride_rel. eapply jrel_set; [exact Hp|apply Hz].
    + cbn [q_coef set_stride set_coef]. apply Last. exists m'. exact Ez.
  - eapply sim_bind; [apply (swap_sim_shape 1 _ _ pre m n (jr_coef _ _ _ Hp) Ex)|].
    intros U U' [HU EU]. eapply (sim_bind _ (fun y u => crep 1 4 y u /\ nd_shape y = pre ++ [n; 1])).
    { eapply sim_weaken; [|apply (sim_keeps _ (fun y => nd_shape y = pre ++ [n; 1]) _ _ (average_sim d st 3 U U' HU))].
      - intros y u [[Hy _] E]. split; assumption.
      - intros y Hy. unfold np_average_global in Hy. inv_bind Hy. rewrite EU in Hy. change [n; m] with ([n] ++ [m]) in Hy.
        rewrite app_assoc, split_last_snoc in Hy. cbn [bind] in Hy. injection Hy as <-. cbn [map_rows nd_shape]. now rewrite <- app_assoc. }
    intros r r' [Hr Er]. eapply sim_bind; [apply (swap_sim_shape 1 _ _ pre n 1 (proj1 Hr) Er)|]. intros z z' [Hz Ez]. apply sim_ok. split.
    + apply set_stride_rel. eapply jrel_set; [exact Hp|apply Hz].
    + cbn [q_coef set_stride set_coef]. apply Last. exists 1. exact Ez.
Qed.

Lemma time_formatting_sim g p q : jrel (rep 1 4) p q -> last1 g (q_coef p) -> good p ->
  sim (Forall2 (fun a b => jrel (rep 1 4) a b /\ last1 g (q_coef a))) (time_formatting nb false p) (time_formatting tb false q).
Proof.
  intros Hp Hl (Hf & _). unfold time_formatting. rewrite <- (jr_max _ _ _ Hp), <- (jr_stride _ _ _ Hp).
  eapply sim_bind; [apply (split_frequency_sim d st 1 2); [apply Hp|intros _; exact Hf]|]. intros cl cl' Hcl.
  eapply sim_bind; [apply sim_same|]. intros n1s ? <-.
  eapply (sim_mapM st eq).
  - generalize (enumerate n1s). clear. intros l. induction l; constructor; auto.
  - intros [i n1] ? <-. eapply sim_bind.
    + apply (sim_py_index st _ _ _ _ Hcl).
    + intros c c' [Hc (pre & n & E & pre' & m & E')]. apply sim_ok. rewrite (jr_n _ _ _ Hp). split.
      * destruct Hp. constructor; auto.
      * cbn [q_coef set_n set_order set_coef]. intros Hg. destruct (Hl Hg) as (pre2 & E2). rewrite E' in E2. change [m; n] with ([m] ++ [n]) in E2.
        rewrite app_assoc in E2. apply app_inj_tail in E2 as [_ ->]. exists (pre ++ [1]). rewrite E, <- app_assoc. reflexivity.
Qed.

Lemma format_path_sim phi phi' ls a phif phif' lsf af out fmt p q : frel phi phi' -> frel phif phif' -> jrel (crep 2 4) p q -> good p ->
  sim (Forall2 (fun a' b => jrel (rep 1 4) a' b /\ last1 (match a with Global => true | _ => false end) (q_coef a')))
    (format_path nb false phi ls a phif lsf af out fmt p) (format_path tb false phi' ls a phif' lsf af out fmt q).
Proof.
  intros Hphi Hpf Hp Hgd. unfold format_path. set (g := match a with Global => true | _ => false end).
  eapply sim_bind; [apply (sim_keeps _ (fun c => nd_shape c = nd_shape (q_coef p)) _ _ (modulus_sim d st 4 _ _ (jr_coef _ _ _ Hp))); intros c Hc; change (np_modulus complex_ops (q_coef p) = Ok c) in Hc; unfold np_modulus in Hc; injection Hc as <-; reflexivity|].
  intros c c' [Hc Hsh]. cbv zeta. assert (Hg1 : good (set_coef c p)).
  { destruct Hgd as ((pre & m & n & Ex & Hm) & G2). split; [exists pre, m, n; cbn [set_coef q_coef]; now rewrite Hsh|exact G2]. }
  assert (Hp1 : jrel (crep 1 4) (set_coef c p) (set_coef c' q)) by (eapply jrel_set; [exact Hp|exact Hc]).
  revert Hp1 Hg1. generalize (set_coef c p) (set_coef c' q). clear p q c c' Hp Hc Hsh Hgd. intros p q Hp Hgd.
  eapply (sim_bind _ (fun x y => jrel (rep 1 4) x y /\ last1 g (q_coef x) /\ good x)).
  { assert (G0 : g = false -> jrel (rep 1 4) p q /\ last1 g (q_coef p) /\ good p).
    { intros Hg. split; [eapply jrel_imp; [|exact Hp]; intros x t Hx; apply Hx|]. split; [intros K; congruence|exact Hgd]. }
    destruct a; cbn [g] in *.
    - rewrite <- (jr_n _ _ _ Hp). destruct (Nat.ltb 1 _); [|apply sim_ok; now apply G0].
      apply sim_keeps; [now apply time_averaging_sim|]. intros y Hy. split; [intros K; discriminate|]. now apply (time_averaging_good _ _ _ _ Hgd Hy).
    - eapply sim_bind; [apply (sim_keeps _ _ _ _ (average_sim d st 3 _ _ (jr_coef _ _ _ Hp)) (average_pres (q_coef p)))|]. intros c c' [[Hc Hl] Hpr]. apply sim_ok. split.
      + eapply jrel_set; [exact Hp|apply Hc].
      + split; [intros _; exact Hl|]. destruct Hgd as (G1 & G2). split; [exact (pres_fpos _ _ Hpr G1)|exact G2].
    - apply sim_ok. now apply G0. }
  clear p q Hp Hgd. intros p q (Hp & Hl & Hgd).
  eapply (sim_bind _ (fun x y => jrel (rep 1 4) x y /\ last1 g (q_coef x) /\ good x)).
  { rewrite <- (jr_spin _ _ _ Hp). destruct af; [| |apply sim_ok; auto].
    - destruct (q_spin p =? 0)%Z; [apply sim_ok; auto|]. eapply sim_weaken; [|apply (sim_keeps (fun x y => jrel (rep 1 4) x y /\ last1 g (q_coef x)) good)]; [intros x y ((A & B) & D); exact (conj A (conj B D))|apply frequency_averaging_sim; auto; discriminate|intros y Hy; now apply (frequency_averaging_good _ _ _ _ _ Hgd Hy)].
    - destruct (q_spin p =? 0)%Z; [apply sim_ok; auto|]. eapply sim_weaken; [|apply (sim_keeps (fun x y => jrel (rep 1 4) x y /\ last1 g (q_coef x)) good)]; [intros x y ((A & B) & D); exact (conj A (conj B D))|apply frequency_averaging_sim; auto; discriminate|intros y Hy; now apply (frequency_averaging_good _ _ _ _ _ Hgd Hy)]. }
  clear p q Hp Hl Hgd. intros p q (Hp & Hl & Hgd).
  eapply (sim_bind _ (fun x y => jrel (rep 1 4) x y /\ last1 g (q_coef x) /\ good x)).
  { destruct (_ && _); [apply sim_ok; auto|]. rewrite <- (jr_max _ _ _ Hp), <- (jr_stride _ _ _ Hp).
    eapply (sim_bind _ (fun x y => rep 1 4 x y /\ last1 g x /\ good (set_coef x p))).
    - apply sim_keeps; [apply (unpad_frequency_sim d st 1); apply Hp|].
      intros y Hy. change (np_unpad_frequency (q_coef p) (q_n1_max p) (q_n1_stride p) = Ok y) in Hy. split; [intros Hg|now apply unpad_good]. unfold np_unpad_frequency in Hy.
      destruct (q_n1_stride p) as [s|]; [|discriminate]. destruct (s =? 0)%Z; [discriminate|].
      destruct (rank_split2 _ _ (rp_rank (jr_coef _ _ _ Hp))) as (pre & m & n & Ex & Hpre). rewrite Ex, split_last2_snoc in Hy. cbn [bind] in Hy.
      destruct (Hl Hg) as (pre2 & E2). rewrite Ex in E2. change [m; n] with ([m] ++ [n]) in E2. rewrite app_assoc in E2. apply app_inj_tail in E2 as [_ ->].
      injection Hy as <-. cbn [nd_shape]. exists (pre ++ [Nat.min (Z.to_nat (1 + q_n1_max p / s)) m]). now rewrite <- app_assoc.
    - intros c c' (Hc & Hlc & Hgc). apply sim_ok. split; [eapply jrel_set; [exact Hp|exact Hc]|split; [exact Hlc|exact Hgc]]. }
  clear p q Hp Hl Hgd. intros p q (Hp & Hl & Hgd).
  destruct (String.eqb fmt "joint").
  - apply sim_ok. constructor; [|constructor]. rewrite (jr_n _ _ _ Hp). split; [|exact Hl]. destruct Hp. constructor; auto.
  - destruct (String.eqb fmt "time"); [now apply time_formatting_sim|apply sim_ok; constructor].
Qed.

Record tjrel (s : jtfs (nd C) P) (s' : jtfs tensor P) : Prop := {
  tj_base : srel d (t_base s) (t_base s'); tj_phi : frel (t_phi_fr s) (t_phi_fr s'); tj_psis : Forall2 frel (t_psis_fr s) (t_psis_fr s');
  tj_stride : t_log2_stride_fr s = t_log2_stride_fr s'; tj_avg : t_average_fr s = t_average_fr s'; tj_format : t_format s = t_format s'
}.

Lemma jfinish0_sim s s' a batch p q : tjrel s s' ->
  (if match a with Global => true | _ => false end then prel (fun x t => rep 1 3 x t /\ last1 true x) p q else prel (rep 1 3) p q) ->
  sim (prel (plain (length batch + 1))) (jfinish0 nb s a batch p) (jfinish0 tb s' a batch q).
Proof.
  intros Hs Hp. unfold jfinish0. pose proof (tj_base _ _ Hs) as Hb.
  rewrite <- (sr_stride _ _ _ Hb), <- (sr_start _ _ _ Hb), <- (sr_end _ _ _ Hb). destruct a.
  2:{ destruct Hp as ([Hc Hl] & Ej & En). destruct (Hl eq_refl) as (pre & E). cbn [bind].
      eapply sim_bind; [apply (reshape_output_global d st 3 _ _ batch pre Hc E)|]. intros y u Hy. apply sim_ok. split; auto. }
  all: destruct Hp as (Hc & Ej & En); eapply sim_bind;
    [eapply sim_bind; [apply sim_same|]; intros r ? <-; eapply sim_bind; [apply sim_same|]; intros i0 ? <-; eapply sim_bind; [apply sim_same|]; intros i1 ? <-;
     apply (unpad_sim d st 2); exact Hc|];
    intros c c' Hcc; eapply sim_bind; [apply (reshape_output_plain d st 3 c c' batch 1 Hcc)|]; intros y u Hy; apply sim_ok; split; [|auto];
    destruct (rank_split _ _ (pl_rank Hcc)) as (pre & n & E & _); rewrite E, trailing_1, app_length in Hy; exact Hy.
Qed.

Lemma trailing_2 pre m n : trailing 2 (pre ++ [m; n]) = [m; n].
Proof.
  unfold trailing. rewrite app_length. cbn [length]. replace (length pre + 2 - 2) with (length pre) by lia.
  now rewrite skipn_app, skipn_all, Nat.sub_diag.
Qed.

Lemma jfinish_sim s s' a batch p q : tjrel s s' -> (a = Global -> String.eqb (t_format s) "joint" = false) ->
  jrel (rep 1 4) p q -> last1 (match a with Global => true | _ => false end) (q_coef p) ->
  sim (jrel (plain (length batch + (if String.eqb (t_format s) "joint" then 2 else 1)))) (jfinish nb s a batch p) (jfinish tb s' a batch q).
Proof.
  intros Hs Hg Hp Hl. unfold jfinish. pose proof (tj_base _ _ Hs) as Hb.
  rewrite <- (sr_stride _ _ _ Hb), <- (sr_start _ _ _ Hb), <- (sr_end _ _ _ Hb), <- (tj_format _ _ Hs), <- (jr_n _ _ _ Hp), <- (jr_j _ _ _ Hp).
  destruct a.
  2:{ rewrite (Hg eq_refl). destruct (Hl eq_refl) as (pre & E). cbn [bind].
      eapply sim_bind; [apply (reshape_output_global d st 4 _ _ batch pre (jr_coef _ _ _ Hp) E)|]. intros y u Hy. apply sim_ok. eapply jrel_set; [exact Hp|exact Hy]. }
  all: eapply sim_bind;
    [eapply sim_bind; [apply sim_same|]; intros r ? <-; eapply sim_bind; [apply sim_same|]; intros i0 ? <-; eapply sim_bind; [apply sim_same|]; intros i1 ? <-;
     apply (unpad_sim d st 3); apply Hp|];
    intros c c' Hcc; eapply sim_bind; [apply (reshape_output_plain d st 4 c c' batch _ Hcc)|]; intros y u Hy; apply sim_ok; eapply jrel_set; [exact Hp|];
    destruct (rank_split2 _ _ (pl_rank Hcc)) as (pre & m & n & E & _); rewrite E in Hy;
    (destruct (String.eqb (t_format s) "joint"); [rewrite trailing_2 in Hy|change [m; n] with ([m] ++ [n]) in Hy; rewrite app_assoc, trailing_1 in Hy]);
    rewrite app_length in Hy; exact Hy.
Qed.

Inductive jout_rel (k : nat) : joutput (nd C) -> joutput tensor -> Prop :=
| jor_array x t : plain (S k) x t -> jout_rel k (JArray x) (JArray t)
| jor_list p0 p0' l l' k0 : prel (plain k0) p0 p0' -> Forall2 (jrel (plain k)) l l' -> jout_rel k (JList p0 l) (JList p0' l')
| jor_dict l l' : Forall2 (fun a b => fst a = fst b /\ exists k0, plain k0 (snd a) (snd b)) l l' -> jout_rel k (JDict l) (JDict l').

Lemma jcheck_same s s' : tjrel s s' -> jcheck_runtime_args s = jcheck_runtime_args s'.
Proof.
  intros H. unfold jcheck_runtime_args. rewrite <- (check_runtime_same d _ _ (tj_base _ _ H)), <- (tj_format _ _ H), <- (tj_avg _ _ H), <- (sr_out _ _ _ (tj_base _ _ H)). reflexivity.
Qed.

Lemma jpaths_sim s s' k x t : tjrel s s' -> plain k x t ->
  (s_average (t_base s) = Ok Global -> String.eqb (t_format s) "joint" = false) ->
  (st = true -> (Z.of_nat (length (s_psi1 (t_base s))) <= f_N (t_phi_fr s))%Z) ->
  sim (fun a b => 1 <= k /\ prel (plain k) (fst a) (fst b) /\ Forall2 (jrel (plain (k + (if String.eqb (t_format s) "joint" then 1 else 0)))) (snd a) (snd b))
    (jpaths nb sgn s x) (jpaths tb sgn s' t).
Proof.
  intros Hs Hx Hg Hbins. unfold jpaths. pose proof (tj_base _ _ Hs) as Hb. rewrite <- (jcheck_same _ _ Hs).
  eapply sim_bind; [apply sim_same|]. intros _ _ _.
  change (be_shape nb x) with (nd_shape x). change (be_shape tb t) with (t_shape t). rewrite (pl_shape Hx).
  eapply sim_bind; [apply sim_same|]. intros _ _ _.
  destruct (split_last (nd_shape x)) as [[batch n]|e] eqn:Esp; cbn [bind]; [|apply sim_err].
  assert (Hk : length batch + 1 = k).
  { apply split_last_inv in Esp. pose proof (pl_rank Hx) as G. rewrite Esp, app_length in G. exact G. }
  eapply sim_bind; [apply (reshape_input_sim d st k); exact Hx|]. intros y u Hy.
  rewrite <- (sr_left _ _ _ Hb), <- (sr_right _ _ _ Hb), <- (sr_stride _ _ _ Hb), <- (sr_avg _ _ _ Hb), <- (sr_out _ _ _ Hb), <- (tj_stride _ _ Hs), <- (tj_avg _ _ Hs), <- (tj_format _ _ Hs).
  eapply sim_bind; [apply (pad_sim d st 2); [exact Hy|now right]|]. intros U U' HU.
  eapply sim_bind; [apply sim_same|]. intros ls ? <-.
  destruct (s_average (t_base s)) as [a|e] eqn:Ea; cbn [bind]; [|apply sim_err].
  eapply sim_bind; [apply sim_same|]. intros lsf ? <-. eapply sim_bind; [apply sim_same|]. intros af ? <-.
  eapply sim_bind.
  { apply (joint_sim U U' (s_phi (t_base s)) (s_phi (t_base s')) (s_psi1 (t_base s)) (s_psi1 (t_base s')) (s_psi2 (t_base s)) (s_psi2 (t_base s')) ls (is_local_avg a)
      (t_phi_fr s) (t_phi_fr s') (t_psis_fr s) (t_psis_fr s') lsf (is_local_avg af) HU); try apply Hb; try apply Hs. exact Hbins. }
  intros [p0 ps] [p0' ps'] [Hp0 Hps]. cbn [fst snd] in *.
  eapply (sim_bind _ (fun u v => (if match a with Global => true | _ => false end then prel (fun x t => rep 1 3 x t /\ last1 true x) (fst u) (fst v) else prel (rep 1 3) (fst u) (fst v)) /\
     Forall2 (fun a' b => jrel (rep 1 4) a' b /\ last1 (match a with Global => true | _ => false end) (q_coef a')) (snd u) (snd v))).
  { unfold average_and_format.
    eapply (sim_bind _ (fun u v => if match a with Global => true | _ => false end then prel (fun x t => rep 1 3 x t /\ last1 true x) u v else prel (rep 1 3) u v)).
    { destruct Hp0 as (Hc & Ej & En). destruct a.
      - apply sim_ok. split; [apply Hc|auto].
      - eapply sim_bind; [apply (average_sim d st 2); split; [apply Hc|now apply Hc]|]. intros c c' [Hcc Hl]. apply sim_ok.
        split; [|auto]. split; [apply Hcc|intros _; exact Hl].
      - apply sim_ok. split; [apply Hc|auto]. }
    intros q0 q0' Hq0. eapply sim_bind.
    { eapply (sim_mapM st); [exact Hps|]. intros p q [Hp Hgd]. apply (format_path_sim (s_phi (t_base s)) (s_phi (t_base s')) ls a (t_phi_fr s) (t_phi_fr s') lsf af (s_out_type (t_base s)) (t_format s) p q);
       [apply Hb|apply Hs|exact Hp|exact Hgd]. }
    intros l l' Hl. apply sim_ok. cbn [fst snd]. split; [exact Hq0|]. now apply Forall2_concat. }
  intros [q0 qs] [q0' qs'] [Hq0 Hqs]. cbn [fst snd] in *.
  eapply sim_bind; [now apply (jfinish0_sim s s' a batch q0 q0')|]. intros r0 r0' Hr0.
  eapply sim_bind.
  { eapply (sim_mapM st); [exact Hqs|]. intros p q [Hp Hl]. apply (jfinish_sim s s' a batch p q); [exact Hs| |exact Hp|exact Hl].
    intros ->. now apply Hg. }
  intros l l' Hl. apply sim_ok. cbn [fst snd]. rewrite <- Hk. split; [lia|]. split; [exact Hr0|].
  eapply Forall2_impl_in; [|exact Hl]. intros p q _ _ Hp. destruct (String.eqb (t_format s) "joint"); [|rewrite Nat.add_0_r; exact Hp].
  replace (length batch + 1 + 1) with (length batch + 2) by lia. exact Hp.
Qed.

Lemma jdict_set_rel n (x : nd C) t dd dd' : Forall2 (fun a b : list nat * _ => fst a = fst b /\ exists k, plain k (snd a) (snd b)) dd dd' -> (exists k, plain k x t) ->
  Forall2 (fun a b => fst a = fst b /\ exists k, plain k (snd a) (snd b)) (dict_set n x dd) (dict_set n t dd').
Proof.
  intros H Hx. induction H as [|[a x'] [b t'] dd dd' [E Hxt] H IH]; cbn [dict_set fst snd] in *.
  - constructor; [|constructor]. auto.
  - subst b. destruct (list_eq_dec Nat.eq_dec n a); constructor; auto.
Qed.

Lemma jfold_dict_rel k l l' : Forall2 (jrel (plain k)) l l' -> forall dd dd',
  Forall2 (fun a b : list nat * _ => fst a = fst b /\ exists k0, plain k0 (snd a) (snd b)) dd dd' ->
  Forall2 (fun a b => fst a = fst b /\ exists k0, plain k0 (snd a) (snd b))
    (fold_left (fun m p => dict_set (q_n p) (q_coef p) m) l dd) (fold_left (fun m p => dict_set (q_n p) (q_coef p) m) l' dd').
Proof.
  intros H. induction H as [|p p' l l' Hp H IH]; intros dd dd' Hd; cbn [fold_left]; [exact Hd|].
  apply IH. rewrite (jr_n _ _ _ Hp). apply jdict_set_rel; [exact Hd|]. exists k. apply Hp.
Qed.

Theorem jtfs_sim s s' k x t : tjrel s s' -> plain k x t ->
  (s_average (t_base s) = Ok Global -> String.eqb (t_format s) "joint" = false) ->
  (st = true -> (Z.of_nat (length (s_psi1 (t_base s))) <= f_N (t_phi_fr s))%Z) ->
  sim (jout_rel (k + (if String.eqb (t_format s) "joint" then 1 else 0))) (jtfs_scattering nb sgn s x) (jtfs_scattering tb sgn s' t).
Proof.
  intros Hs Hx Hg Hbins. unfold jtfs_scattering. eapply sim_bind; [apply (jpaths_sim s s' k x t Hs Hx Hg Hbins)|].
  intros [p0 l] [p0' l'] (Hk & Hp0 & Hl). cbn [fst snd] in *. unfold jcontainer.
  rewrite <- (sr_out _ _ _ (tj_base _ _ Hs)), <- (tj_format _ _ Hs). destruct (String.eqb (s_out_type _) "array").
  - destruct (String.eqb (t_format s) "joint").
    + eapply sim_bind; [apply (stack_plain d st (k + 1) (-3)%Z _ _ (k - 1)); [|lia|lia]|intros y u Hy; apply sim_ok; constructor; exact Hy].
      eapply Forall2_map2; [|exact Hl]. intros a b Hab. apply Hab.
    + rewrite Nat.add_0_r in *. eapply sim_bind; [apply (stack_plain d st k (-2)%Z _ _ (k - 1)); [|lia|lia]|intros y u Hy; apply sim_ok; constructor; exact Hy].
      constructor; [apply Hp0|]. eapply Forall2_map2; [|exact Hl]. intros a b Hab. apply Hab.
  - destruct (String.eqb (s_out_type _) "dict").
    + apply sim_ok. constructor. eapply jfold_dict_rel; [exact Hl|]. destruct Hp0 as (H0 & _ & En). rewrite En.
      apply jdict_set_rel; [constructor|]. exists k. exact H0.
    + apply sim_ok. apply (jor_list _ p0 p0' l l' k Hp0 Hl).
Qed.
End Jtfs.
