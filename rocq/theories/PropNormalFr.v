(** Property C111, continued: the divisors of the frequential wavelets of TimeFrequencyScattering. *)
From Coq Require Import String Reals ZArith QArith List Bool Lia Lra.
From Coquelicot Require Import Complex.
From Verif Require Import Base BaseProofs NdArray Backend Core1d Utils1d Utils1dProofs Frontend1d ComplexOps FilterBank1d
  FilterBank1dProofs Factory1d FactoryProofs Construct1d Shape1d PropFilters1d PropShapes1d Dft Conv1d Rows1d Value1d Tabulated1d
  PropNumerics1d Invariance1d Norm1d PropFilterShape1d Normal1d PropNormal1d Jtfs JtfsFront JtfsProofs JtfsConstruct PropJtfs JtfsReady JtfsRun JtfsTotal NormalFr.
Import ListNotations.
Local Open Scope R_scope.

(** Every wavelet along the log-frequency axis, of either spin.  The number of bins [N] is at least eight, and
    a quarter of the sampling frequency away from zero, on the side of the spin, the response is positive. *)
Theorem C111_frequential : forall support p out t, (0 <= p_J (jp_base p))%Z -> (0 <= jp_J_fr p)%Z ->
  TimeFrequencyScattering support p out = Ok t ->
  let N := Z.to_nat (f_N (t_phi_fr t)) in
  (8 <= N)%nat /\ exists low psis, t_psis_fr t = low :: psis /\
  forall f, In f psis -> 0 < divisor N f /\
    (0 < f_xi f -> exists v, at_ (lev f 0) (N / 4) = RtoC v /\ 0 < v) /\
    (f_xi f < 0 -> exists v, at_ (lev f 0) (N - N / 4) = RtoC v /\ 0 < v) /\ f_xi f <> 0.
Proof.
  intros support p out t HJ HJf H N. pose proof H as H0. apply new_jtfs_inv in H0.
  destruct H0 as (pb & Q_fr & q0 & q1' & F & Epb & EB & HQ & EQ & ET & HNf & _ & _ & _ & Ephi & phi1 & psis & Epsis & Eps).
  pose proof (factory_inv1 _ _ _ _ _ _ _ _ _ Ephi ltac:(cbn; lia)) as (_ & _ & FN & _).
  pose proof (factory_inv1 _ _ _ _ _ _ _ _ _ Epsis ltac:(cbn; lia)) as (_ & _ & _ & _ & qf & -> & ps & Eps' & Gm & _).
  injection Eps' as <-. apply Q_fr_ge1 in HQ.
  assert (Hq0 : (0 <= q0)%Z).
  { assert (EQ2 : Q_of (p_Q (jp_base p)) = Ok [QI q0; q1']) by (subst pb; exact EQ).
    pose proof (constructed_psi1 support p out t q0 q1' HJ H EQ2) as (_ & _ & L). nia. }
  set (Nf := N_padded_fr_of ((p_J (jp_base p) + 1) * q0) (jp_J_fr p) F) in *.
  assert (H8 : (8 <= Nf)%Z) by (apply bins_ge8; [nia|exact HJf|exact (T_of_ge1 _ _ _ _ HJf ET)|exact HNf]).
  assert (EN : N = Z.to_nat Nf) by (unfold N; rewrite FN; lia). rewrite <- EN in *.
  assert (HN : (8 <= N)%nat) by (rewrite EN; lia). split; [exact HN|]. exists phi1, psis. split; [exact Eps|].
  intros f Hf. destruct (layer_In _ _ _ _ _ _ _ _ Gm Hf) as (xi & sg & Hin & Ex & Es & _ & El).
  destruct (sane_morlet _ formulas1d_sane N xi sg) as (S1 & S2 & S3).
  pose proof (levels_tabulated _ _ _ _ S1 S2 S3 El) as Tb. apply tabulated_lev0 in Tb. rewrite Tb.
  change (fo_morlet formulas_fr N xi sg) with (morlet_1d N (Some xi) sg).
  unfold divisor. rewrite Ex, Es. fold (l1_norm N (morlet_raw N (Some xi) sg)).
  cbn [fo_bank formulas_fr] in Hin. unfold spin in Hin. apply in_app_iff in Hin.
  assert (Hb : forall x s, In (x, s) (anden_list (jp_J_fr p) qf sigma0 r_psi) -> 0 < x < 1 / 2 /\ 0 < s <= 1 / 7).
  { intros x s I. apply (bank_sigma _ _ _ _ _ HJf HQ (anden_list_ok _ _ HJf HQ) I). }
  assert (Q4 : (N / 4 < N /\ N - N / 4 < N)%nat).
  { pose proof (Nat.div_mod N 4 ltac:(discriminate)). pose proof (Nat.mod_upper_bound N 4 ltac:(discriminate)). lia. }
  assert (Key : forall i, (i < N)%nat -> 0 < morlet_raw N (Some xi) sg i ->
    0 < l1_norm N (morlet_raw N (Some xi) sg) /\ exists v, at_ (nd_data (morlet_1d N (Some xi) sg)) i = RtoC v /\ 0 < v).
  { intros i Hi V. assert (D : 0 < l1_norm N (morlet_raw N (Some xi) sg)) by (apply (l1_norm_pos N ltac:(lia) _ i); [exact Hi|now apply Rgt_not_eq]).
    split; [exact D|]. exists (morlet_at N (Some xi) sg i). split; [now apply morlet_data_at|]. unfold morlet_at. now apply Rdiv_lt_0_compat. }
  destruct Hin as [Hin|Hin].
  - destruct (Hb _ _ Hin) as [Hx Hs]. destruct (Key (N / 4)%nat (proj1 Q4) (quarter_pos N sg xi HN Hs Hx)) as [D V].
    split; [exact D|]. split; [intros _; exact V|]. split; [intros; lra|lra].
  - apply in_map_iff in Hin. destruct Hin as ([x s] & E & Hin). apply pair_equal_spec in E as [Exi Esg]. cbn [fst snd] in Exi, Esg. subst sg.
    destruct (Hb _ _ Hin) as [Hx Hs]. assert (V0 : 0 < morlet_raw N (Some xi) s (N - N / 4)) by (rewrite <- Exi; now apply quarter_neg).
    destruct (Key (N - N / 4)%nat (proj2 Q4) V0) as [D V]. split; [exact D|]. split; [intros; lra|]. split; [intros _; exact V|lra].
Qed.
Print Assumptions C111_frequential.

(** J = 8, Q = 1, J_fr = 3. *)
Example C111_frequential_instance : forall N, (256 <= N)%Z -> exists t f g,
  TimeFrequencyScattering (fun _ _ => 0%Z) (default_jparams 8 N 1 3 TNone "joint") "list" = Ok t /\
  In f (t_psis_fr t) /\ In g (t_psis_fr t) /\ 0 < f_xi f /\ f_xi g = - f_xi f /\
  0 < divisor (Z.to_nat (f_N (t_phi_fr t))) f /\ 0 < divisor (Z.to_nat (f_N (t_phi_fr t))) g.
Proof.
  intros N HN. assert (H3 : (0 <= 3)%Z) by lia.
  destruct (jtfs_instance (fun _ _ => 0%Z) 8 N 1 3 TNone (Qpower 2 3) "list" "joint") as (t & Ht); try lia; try reflexivity; try (cbn; lia).
  destruct (C111_frequential _ _ _ _ (ltac:(cbn; lia) : (0 <= p_J (jp_base (default_jparams 8 N 1 3 TNone "joint")))%Z) H3 Ht) as (_ & low & psis & E & F).
  destruct (new_jtfs_bank _ (default_jparams 8 N 1 3 TNone "joint") _ _ H3 Ht) as (low' & pos & neg & E' & _ & _ & Hp & Hn & _).
  pose proof E' as E2. rewrite E in E'. injection E' as <- ->.
  assert (Hpos : exists f pos', pos = f :: pos').
  { destruct pos as [|f pos']; [exfalso|eauto]. apply new_jtfs_inv in Ht.
    destruct Ht as (pb & Q_fr & q0 & q1 & F' & _ & _ & HQ & _ & _ & _ & _ & _ & _ & _ & phi1 & ps & Ef & Eps). injection HQ as <-.
    apply factory_inv1 in Ef; [|cbn; lia]. destruct Ef as (_ & _ & _ & _ & q' & Eq & p1 & E1 & Em & _). injection E1 as <-. injection Eq as <-.
    rewrite Eps in E. apply (f_equal (@List.length _)) in E. cbn [List.length app] in E. destruct neg; [|discriminate Hn].
    apply layer_bank in Em. destruct Em as [Em _]. apply (f_equal (@List.length _)) in Em. rewrite map_length in Em.
    cbn [fo_bank formulas_fr] in Em. unfold spin in Em. rewrite app_length, map_length in Em.
    pose proof (anden_length _ _ _ H3 (Z.le_refl 1) (anden_list_ok _ _ H3 (Z.le_refl 1))) as L.
    change (jp_J_fr (default_jparams 8 N 1 3 TNone "joint")) with 3%Z in Em. cbn [List.length] in E. lia. }
  destruct Hpos as (f & pos' & ->). destruct neg as [|g neg']; [discriminate Hn|]. cbn [map] in Hn. injection Hn as Hx _ _ _.
  inversion Hp; subst. exists t, f, g. split; [exact Ht|]. rewrite E. assert (If : In f ((f :: pos') ++ g :: neg')) by now left.
  assert (Ig : In g ((f :: pos') ++ g :: neg')) by (apply in_app_iff; right; now left).
  split; [now right|]. split; [now right|]. split; [tauto|]. split; [exact Hx|]. split; [apply (F f If)|apply (F g Ig)].
Qed.
