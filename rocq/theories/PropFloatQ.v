(** C06 and C94: what the constructors do with a tuple Q or Q_fr that has a float entry. *)
From Coq Require Import String Reals ZArith QArith List Bool Lia Lra.
From Coquelicot Require Import Complex.
From Verif Require Import Base BaseProofs NdArray Backend Core1d Utils1d Utils1dProofs Frontend1d Factory1d FactoryProofs
  ComplexOps FilterBank1d FilterBank1dProofs Construct1d Shape1d PropFilters1d Jtfs JtfsFront JtfsConstruct JtfsTotal
  PropJtfsRuns PropJtfsErrors.
Import ListNotations.
Local Open Scope Z_scope.
Local Open Scope res_scope.

(** C06, the pair "used as is": a pair of numbers >= 1 passes the checks on Q, but the constructor only survives
    integers.  A float entry (8.0 as much as 8.5) reaches [range(Q-1)] in the generator, which raises TypeError.  The
    other hypotheses are the ones under which every pair of integers in its place is accepted ([new_total]). *)
Theorem C06_float_entry_refuted : forall support p out b q1 q2 l2T,
  (forall n t, 0 <= support n t) -> 1 <= b_N b -> build support p = Ok b -> 0 <= p_J p ->
  log2_T_of (p_T p) (p_J p) (b_N b) = Ok l2T -> 2 ^ Z.max l2T (p_J p - 2) <= b_Npad b ->
  p_Q p = QTuple [q1; q2] -> (1 <= qnum_val q1)%Q -> (1 <= qnum_val q2)%Q ->
  Q_of (p_Q p) = Ok [q1; q2] /\
  ((exists f, q1 = QF f) \/ (exists z f, q1 = QI z /\ q2 = QF f) ->
   Scattering1D support p out = Err TypeError).
Proof.
  intros support p out b q1 q2 l2T Hsup HN Hb HJ ET Hfit EQ H1 H2.
  assert (EQ' : Q_of (p_Q p) = Ok [q1; q2]).
  { rewrite EQ. unfold Q_of. cbn [qval_entries map existsb]. apply Qltb_false in H1, H2. now rewrite H1, H2. }
  split; [exact EQ'|]. intros HF. unfold new_scattering1d. rewrite Hb. cbn [bind]. rewrite EQ'. cbn [bind].
  rewrite ET. unfold log2_T_of in ET. destruct (T_of (p_T p) (p_J p) (b_N b)) as [T|]; [|discriminate]. cbn [bind].
  unfold filter_factory. destruct HF as [(f & ->)|(z & f & -> & ->)]; [reflexivity|]. cbn [make_layers].
  destruct (mapM_total (make_psi complex_ops formulas1d (Z.to_nat (b_Npad b)) l2T 0) (fo_bank formulas1d (p_J p) z))
    as [psis ->]; [|reflexivity].
  intros [xi s] _. unfold make_psi, levels_upto. replace (zrange 1 _) with (@nil Z); [cbn [mapM bind]; eauto|]. unfold zrange.
  replace (Z.to_nat _) with 0%nat by lia. reflexivity.
Qed.
Print Assumptions C06_float_entry_refuted.

(** J = 4, N = 100, Q = (8.0, 1) and Q = (8, 1.5): both raise; Q = (8, 1) does not. *)
Example C06_float_instance : forall q1 q2, In (q1, q2) [(QF 8, QI 1); (QI 8, QF (3#2))] ->
  Scattering1D (fun _ _ => 30) (mk_params 4 100 (QTuple [q1; q2]) TNone SNone 2) "array" = Err TypeError.
Proof.
  intros q1 q2 Hin.
  destruct (build_total (fun _ _ => 30) (mk_params 4 100 (QTuple [q1; q2]) TNone SNone 2) 100 SNone (Qpower 2 4)) as [b Hb];
    [reflexivity|lia|cbv beta; lia|reflexivity|reflexivity|].
  assert (HbN : b_N b = 100).
  { destruct (build_inv _ _ _ Hb) as (st & T & l & r & EN & _). cbn in EN. congruence. }
  destruct (build_plan (fun _ _ => 30) _ b ltac:(intros; lia) Hb) as (_ & B1 & _); [lia|].
  apply (C06_float_entry_refuted (fun _ _ => 30) _ "array" b q1 q2 4); try assumption; try (intros; lia); try reflexivity.
  - cbn [p_J mk_params]. lia.
  - cbn [p_J mk_params]. change (2 ^ Z.max 4 (4 - 2)) with 16. lia.
  - destruct Hin as [E|[E|[]]]; injection E as <- <-; unfold Qle; cbn; lia.
  - destruct Hin as [E|[E|[]]]; injection E as <- <-; unfold Qle; cbn; lia.
  - destruct Hin as [E|[E|[]]]; injection E as <- <-; eauto.
Qed.

(** C94: the same for the frequential filter bank.  Q_fr = (f,) with a float f >= 1 passes the check on Q_fr, and raises
    TypeError in every object that an accepted Q_fr would have made constructible. *)
Theorem C94_float_Q_fr : forall support p out t f, (1 <= f)%Q ->
  TimeFrequencyScattering support p out = Ok t ->
  TimeFrequencyScattering support (with_Q_fr (QTuple [QF f]) p) out = Err TypeError.
Proof.
  intros support p out t f Hf H. apply new_jtfs_inv in H.
  destruct H as (pb & Q_fr & q0 & q1 & F & Epb & EB & EQf & EQ & EF & HNf & _ & _ & _ & E0 & _).
  unfold new_jtfs. cbn zeta. cbn [with_Q_fr jp_base jp_J_fr jp_Q_fr jp_F jp_stride_fr jp_format].
  rewrite <- Epb, EB. cbn [bind]. unfold Q_fr_of. cbn [qval_entries map existsb qnum_val].
  apply Qltb_false in Hf. rewrite Hf. cbn [orb bind]. rewrite EQ. cbn [bind]. subst pb. cbn [p_J]. rewrite EF. cbn [bind].
  unfold create_filters_fr. destruct (Z.leb_spec (N_padded_fr_of ((p_J (jp_base p) + 1) * q0) (jp_J_fr p) F) 0); [lia|].
  rewrite E0. reflexivity.
Qed.
Print Assumptions C94_float_Q_fr.
Example C94_float_instance : forall N, 4 <= N ->
  TimeFrequencyScattering (fun _ _ => 1) (with_Q_fr (QTuple [QF 2]) (default_jparams 2 N 8 1 TNone "time")) "array" = Err TypeError.
Proof.
  intros N HN. destruct (default_object (fun _ _ => 1) 2 N 8 1 "array" "time") as [t Ht]; [intros; lia|lia|lia|lia|lia|].
  destruct Ht as (_ & H & _). apply (C94_float_Q_fr _ _ _ t); [discriminate|exact H].
Qed.
