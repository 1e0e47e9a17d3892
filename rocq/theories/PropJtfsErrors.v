(** Property C94: the arguments that TimeFrequencyScattering refuses, and the exceptions it raises. *)
From Coq Require Import String Reals ZArith QArith Qpower List Bool Arith Lia Lra.
From Coquelicot Require Import Complex.
From Verif Require Import Base BaseProofs NdArray Backend Core1d Utils1d Utils1dProofs Frontend1d Frontend1dProofs NdProofs Rows1d
  Factory1d FactoryProofs ComplexOps FilterBank1d FilterBank1dProofs Construct1d Shape1d PropShapes1d
  Jtfs JtfsFront JtfsConstruct JtfsTotal PropJtfs JtfsReady PropJtfsValues PropJtfsRuns.
Import ListNotations.
Local Open Scope Z_scope.
Local Open Scope res_scope.

(** The object of class Scattering1D that TimeFrequencyScattering extends. *)
Definition time_params (p : jparams) : params :=
  {| p_J := p_J (jp_base p); p_shape := p_shape (jp_base p); p_Q := p_Q (jp_base p); p_T := p_T (jp_base p);
     p_stride := p_stride (jp_base p); p_max_order := 2; p_oversampling := ONone |}.
(** The numbers of filters per octave passed as Q_fr. *)
Definition numbers (v : qval) : list Q :=
  match v with QInt z => [inject_Z z] | QFloat q => [q] | QTuple l | QList l => map qnum_val l end.
Definition too_small (v : qval) : Prop := exists q, In q (numbers v) /\ (q < 1)%Q.
(** F is out of range for [n] first-order wavelets. *)
Definition F_out_of_range (F : tval) (n : Z) : Prop :=
  exists q, F = TNum q /\ ((inject_Z n < q)%Q \/ (q < 1)%Q /\ ~ (q == 0)%Q).
(** stride_fr is neither None nor a power of two, or it is given although the frequency axis is not averaged locally. *)
Definition bad_stride (s : sval) (F : tval) : Prop :=
  s <> SNone /\ ((forall k, 0 <= k -> s <> SInt (2 ^ k)) \/ F = TGlobal \/ exists q, F = TNum q /\ (q == 0)%Q).

Lemma too_small_spec v : existsb (fun q => Qltb q 1) (qval_entries v) = true <-> too_small v.
Proof.
  assert (E : qval_entries v = numbers v) by (destruct v; reflexivity). rewrite E, existsb_exists.
  assert (L : forall q, Qltb q 1 = true <-> (q < 1)%Q).
  { intros q. unfold Qltb. rewrite negb_true_iff. rewrite <- not_true_iff_false, Qle_bool_iff. split; intros H.
    - now apply Qnot_le_lt. - now apply Qlt_not_le. }
  split; intros (q & H1 & H2); exists q; (split; [exact H1|]); now apply L.
Qed.
Lemma F_error F J n : F_out_of_range F n -> 0 <= n -> T_of F J n = Err ValueError.
Proof.
  intros (q & -> & H) Hn. unfold T_of, parse_T, Qltb.
  destruct (Qle_bool q (inject_Z n)) eqn:E1; cbn [negb bind]; [|reflexivity].
  apply Qle_bool_iff in E1. destruct H as [H|[H1 H2]]; [exfalso; now apply (Qlt_not_le _ _ H)|].
  destruct (Qeq_bool q 0) eqn:E2; [apply Qeq_bool_iff in E2; contradiction|].
  destruct (Qle_bool 1 q) eqn:E3; cbn [negb bind]; [|reflexivity].
  apply Qle_bool_iff in E3. exfalso. now apply (Qlt_not_le _ _ H1).
Qed.
Lemma stride_error s F J n FQ : bad_stride s F -> T_of F J n = Ok FQ -> log2_stride_of s F J n = Err ValueError.
Proof.
  intros [Hs H] EF. destruct s as [|z|q|]; [congruence| |reflexivity|reflexivity]. cbn [log2_stride_of].
  destruct (Z.leb_spec z 0) as [|Hz]; [reflexivity|].
  destruct (Z.eqb_spec (2 ^ Z.log2 z) z) as [E|]; cbn [negb]; [|reflexivity].
  destruct H as [H|H]; [exfalso; apply (H (Z.log2 z)); [apply Z.log2_nonneg|now rewrite E]|].
  unfold average_of. unfold T_of in EF. destruct (parse_T F J n) as [[FQ' a]|] eqn:EP; [|discriminate]. cbn [bind snd].
  assert (a = Global \/ a = NoAvg) as [-> | ->]; [|reflexivity|reflexivity].
  destruct H as [->|(q & -> & Hq)]; cbn in EP; [left; congruence|right].
  destruct (Qltb _ _); [discriminate|]. rewrite (proj2 (Qeq_bool_iff q 0) Hq) in EP. congruence.
Qed.

(** Construction: the checks of Scattering1D come first; then Q_fr, then F. *)
Theorem C94_constructor_errors : forall support p out,
  (forall e, Scattering1D support (time_params p) out = Err e -> TimeFrequencyScattering support p out = Err e) /\
  (forall s, Scattering1D support (time_params p) out = Ok s ->
     (too_small (jp_Q_fr p) -> TimeFrequencyScattering support p out = Err ValueError) /\
     (forall l, jp_Q_fr p = QTuple l -> ~ too_small (QTuple l) -> List.length l <> 1%nat ->
        TimeFrequencyScattering support p out = Err NotImplementedError) /\
     ((exists q, jp_Q_fr p = QFloat q) \/ (exists l, jp_Q_fr p = QList l) ->
        TimeFrequencyScattering support p out = Err ValueError) /\
     (forall q q1 q2, jp_Q_fr p = QInt q \/ jp_Q_fr p = QTuple [QI q] -> 1 <= q -> 0 <= p_J (jp_base p) ->
        p_Q (jp_base p) = QInt q1 \/ p_Q (jp_base p) = QTuple [QI q1] \/ p_Q (jp_base p) = QTuple [QI q1; q2] ->
        F_out_of_range (jp_F p) ((p_J (jp_base p) + 1) * q1) -> TimeFrequencyScattering support p out = Err ValueError)).
Proof.
  intros support p out.
  assert (U : TimeFrequencyScattering support p out = (base <- Scattering1D support (time_params p) out ;;
    Q_fr <- Q_fr_of (jp_Q_fr p) ;; Qs <- Q_of (p_Q (jp_base p)) ;;
    q0 <- (match Qs with QI q :: _ => Ok q | _ => Err TypeError end) ;;
    F <- T_of (jp_F p) (jp_J_fr p) ((p_J (jp_base p) + 1) * q0) ;;
    '(phi_fr, psis_fr) <- create_filters_fr complex_ops formulas_fr (N_padded_fr_of ((p_J (jp_base p) + 1) * q0) (jp_J_fr p) F) (jp_J_fr p) Q_fr F ;;
    Ok {| t_base := base; t_phi_fr := phi_fr; t_psis_fr := psis_fr;
        t_log2_stride_fr := log2_stride_of (jp_stride_fr p) (jp_F p) (jp_J_fr p) ((p_J (jp_base p) + 1) * q0);
        t_average_fr := average_of (jp_F p) (jp_J_fr p) ((p_J (jp_base p) + 1) * q0);
        t_format := jp_format p |})) by reflexivity.
  split; [intros e E; rewrite U, E; reflexivity|]. intros s E. rewrite U, E. cbn [bind]. unfold Q_fr_of.
  split; [|split; [|split]].
  - intros H. apply too_small_spec in H. rewrite H. reflexivity.
  - intros l El H Hl. destruct (existsb _ _) eqn:Ex; [rewrite El in Ex; apply too_small_spec in Ex; contradiction|]. rewrite El.
    destruct l as [|a [|b l]]; cbn [List.length] in Hl; [reflexivity|congruence|reflexivity].
  - intros H. destruct (existsb _ _); [reflexivity|]. destruct H as [(q & ->)|(l & ->)]; reflexivity.
  - intros q q1 q2 Hq Hq1 HJ HQ HF.
    assert (Ex : Q_fr_of (jp_Q_fr p) = Ok (QI q)).
    { unfold Q_fr_of. destruct (existsb _ _) eqn:Ex.
      - apply too_small_spec in Ex. destruct Ex as (q' & H1 & H2). exfalso.
        assert (q' = inject_Z q) as -> by (destruct Hq as [Hq|Hq]; rewrite Hq in H1; cbn in H1; tauto || (destruct H1 as [<-|[]]; reflexivity)).
        change 1%Q with (inject_Z 1) in H2. rewrite <- Zlt_Qlt in H2. lia.
      - destruct Hq as [-> | ->]; reflexivity. }
    unfold Q_fr_of in Ex. rewrite Ex. cbn [bind].
    assert (EQ : exists r Qs, Q_of (p_Q (jp_base p)) = Ok Qs /\ Qs = QI q1 :: r).
    { assert (exists Qs, Q_of (p_Q (jp_base p)) = Ok Qs) as (Qs & EQ).
      { apply new_inv in E. destruct E as (b & Qs & T & l2T & phi & psi1s & psi2s & _ & EQ & _). eauto. }
      rewrite EQ. unfold Q_of in EQ. destruct (existsb _ (qval_entries (p_Q (jp_base p)))); [discriminate|].
      destruct HQ as [HQ|[HQ|HQ]]; rewrite HQ in EQ; injection EQ; intros <-; eauto. }
    destruct EQ as (r & Qs & EQ & ->). pose proof EQ as EQ'. rewrite EQ. cbn [bind].
    rewrite F_error; [reflexivity|exact HF|].
    assert (1 <= q1).
    { unfold Q_of in EQ'. destruct (existsb _ (qval_entries (p_Q (jp_base p)))) eqn:Eb; [discriminate|].
      destruct (Z.le_gt_cases 1 q1) as [|Hlt]; [assumption|exfalso].
      rewrite <- not_true_iff_false in Eb. apply Eb. apply too_small_spec. exists (inject_Z q1). split.
      - destruct HQ as [HQ|[HQ|HQ]]; rewrite HQ; left; reflexivity.
      - change 1%Q with (inject_Z 1). rewrite <- Zlt_Qlt. lia. }
    nia.
Qed.
Print Assumptions C94_constructor_errors.

(** Calls: a wrong out_type or format, or a container that cannot hold the result, is refused before the input is looked at,
    by every backend; a wrong stride_fr only when the transform starts, but meta() refuses it as well. *)
Theorem C94_call_errors : forall support p out t N,
  jconstructed support p out t N ->
  (forall X (be : backend X (nd C)) x,
     ~ In out ["array"; "dict"; "list"]%string \/ ~ In (jp_format p) ["time"; "joint"]%string \/
     (out = "array"%string /\ exists q, p_T (jp_base p) = TNum q /\ (q == 0)%Q) \/
     (out = "array"%string /\ jp_format p = "joint"%string /\ exists q, jp_F p = TNum q /\ (q == 0)%Q) ->
     jtfs_scattering be sgnR t x = Err ValueError) /\
  (bad_stride (jp_stride_fr p) (jp_F p) ->
     (forall X (be : backend X (nd C)) x y, jtfs_scattering be sgnR t x <> Ok y) /\
     (forall x batch, nd_wf x -> nd_shape x = batch ++ [Z.to_nat N] ->
        jtfs_scattering np sgnR t x = Err ValueError)).
Proof.
  intros support p out t N (Hsup & H & EN & HN & HJ & HJf). pose proof H as H0. apply new_jtfs_inv in H0.
  destruct H0 as (pb & Q_fr & q0 & q1 & F & Epb & EB & EQf & EQ & EF & HNf & Els & Eav & Ef & _).
  pose proof EB as EB'. apply new_inv in EB'. destruct EB' as (b & Qs & T & l2T & phi & psi1s & psi2s & Hb & _ & ET & El2 & _ & _ & Es).
  assert (Eo : s_out_type (t_base t) = out) by (rewrite Es; reflexivity).
  assert (Ea : exists a, s_average (t_base t) = Ok a /\ ((exists q, p_T (jp_base p) = TNum q /\ (q == 0)%Q) -> a = NoAvg)).
  { rewrite Es. cbn [s_average]. unfold average_of, T_of in *. destruct (parse_T (p_T pb) (p_J pb) (b_N b)) as [[T' a]|] eqn:EP; [|discriminate].
    cbn [bind snd]. exists a. split; [reflexivity|]. intros (q & Eq & Hq). subst pb. cbn [p_T] in EP. rewrite Eq in EP. cbn in EP.
    destruct (Qltb _ _); [discriminate|]. rewrite (proj2 (Qeq_bool_iff q 0) Hq) in EP. congruence. }
  assert (Eb : exists a, t_average_fr t = Ok a /\ ((exists q, jp_F p = TNum q /\ (q == 0)%Q) -> a = NoAvg)).
  { rewrite Eav. unfold average_of, T_of in *. destruct (parse_T (jp_F p) _ _) as [[T' a]|] eqn:EP; [|discriminate].
    cbn [bind snd]. exists a. split; [reflexivity|]. intros (q & Eq & Hq). rewrite Eq in EP. cbn in EP.
    destruct (Qltb _ _); [discriminate|]. rewrite (proj2 (Qeq_bool_iff q 0) Hq) in EP. congruence. }
  destruct Ea as (a & Ea & Ha), Eb as (af & Eaf & Haf).
  set (chk := jcheck_runtime_args t).
  assert (D : chk = Ok tt \/ chk = Err ValueError).
  { unfold chk, jcheck_runtime_args, check_runtime_args. destruct (existsb _ _); [|now right]. rewrite Ea, Eaf. cbn [bind]. unfold raise_if.
    destruct (_ && _); [now right|]. cbn [bind]. destruct (String.eqb (t_format t) "joint"); [destruct (_ && _); [now right|]|]; cbn [bind];
      destruct (negb _); tauto. }
  split.
  - intros X be x Hbad. assert (E : chk = Err ValueError); [|unfold jtfs_scattering, jpaths; fold chk; rewrite E; reflexivity].
    destruct D as [D|D]; [exfalso|exact D]. unfold chk, jcheck_runtime_args in D. inv_bind D. destruct v.
    apply check_runtime_args_ok in E. destruct E as (Hin & a' & Ea' & Hna). rewrite Ea in Ea'. injection Ea' as <-. rewrite Eo in Hin, Hna.
    inv_bind D. rewrite Ef in D, E. rewrite Eaf, Eo in E. cbn [bind] in E.
    assert (Hfmt : In (jp_format p) ["time"; "joint"]%string).
    { destruct (String.eqb_spec (jp_format p) "time"); [now left|]. destruct (String.eqb_spec (jp_format p) "joint"); [right; now left|discriminate]. }
    destruct Hbad as [Hbad|[Hbad|[(H1 & H2)|(H1 & H2 & H3)]]].
    + apply Hbad. exact Hin.
    + contradiction.
    + apply Hna. split; [now apply Ha|exact H1].
    + rewrite H2, (Haf H3), H1 in E. discriminate.
  - intros Hbad. assert (Es' : t_log2_stride_fr t = Err ValueError) by (rewrite Els; eapply stride_error; eassumption). split.
    + intros X be x y. unfold jtfs_scattering, jpaths. rewrite Es'.
      destruct (jcheck_runtime_args t); [|discriminate]. cbn [bind]. destruct (check_input _); [|discriminate]. cbn [bind].
      destruct (split_last _) as [[? ?]|]; [|discriminate]. cbn [bind]. destruct (be_reshape_input _ _ _); [|discriminate]. cbn [bind].
      destruct (be_pad _ _ _ _); [|discriminate]. cbn [bind]. destruct (s_log2_stride _); [|discriminate]. cbn [bind].
      destruct (s_average _); discriminate.
    + intros x batch Hw Hsh. unfold jtfs_scattering, jpaths. fold chk. destruct D as [D|D]; rewrite D; [|reflexivity]. cbn [bind].
      cbn [numpy_backend be_shape be_reshape_input be_pad]. rewrite Hsh. unfold check_input. rewrite app_length. cbn [List.length].
      destruct (Nat.ltb_spec (List.length batch + 1) 1); [lia|]. cbn [raise_if bind]. rewrite split_last_snoc. cbn [bind].
      destruct (of_rows_intro x batch (Z.to_nat N) Hw Hsh) as (rows & Ex & Hr). rewrite Ex, np_reshape_input_of by (exact Hr || lia). cbn [bind].
      assert (Hr1 : rows_ok [prod batch; 1]%nat (Z.to_nat N) rows) by (eapply rows_ok_pre; [|exact Hr]; cbn; lia).
      destruct (C34_pad_unpad support pb out (t_base t) N [prod batch; 1]%nat (of_rows (nd_dtype x) [prod batch; 1]%nat (Z.to_nat N) rows) Hsup EB)
        as (y & _ & _ & Ey & _); [subst pb; exact EN|exact HN|apply of_rows_wf; exact Hr1|reflexivity|].
      rewrite Ey. cbn [bind].
      assert (Est : s_log2_stride (t_base t) = Err ValueError \/ exists ls, s_log2_stride (t_base t) = Ok ls).
      { rewrite Es. cbn [s_log2_stride]. unfold log2_stride_of. destruct (b_stride b) as [|z|q|]; [right; eauto| |now left|now left].
        destruct (z <=? 0); [now left|]. destruct (negb _); [now left|].
        rewrite Es in Ea. cbn [s_average] in Ea. rewrite Ea. cbn [bind]. destruct a; eauto. }
      destruct Est as [E|(ls & E)]; rewrite E; [reflexivity|]. cbn [bind]. rewrite Ea. cbn [bind]. rewrite Es'. reflexivity.
Qed.
Print Assumptions C94_call_errors.

(** meta() refuses a wrong stride_fr as well (for an object whose time stride is legal). *)
Theorem C94_meta_error : forall support p out t N ls,
  jconstructed support p out t N -> s_log2_stride (t_base t) = Ok ls -> bad_stride (jp_stride_fr p) (jp_F p) ->
  jtfs_meta sgnR t = Err ValueError.
Proof.
  intros support p out t N ls (Hsup & H & EN & HN & HJ & HJf) Els Hbad. apply new_jtfs_inv in H.
  destruct H as (pb & Q_fr & q0 & q1 & F & Epb & EB & EQf & EQ & EF & HNf & Elsf & Eav & Ef & _).
  apply new_inv in EB. destruct EB as (b & Qs & T & l2T & phi & psi1s & psi2s & Hb & _ & ET & _ & _ & _ & Es).
  unfold jtfs_meta. rewrite Els. cbn [bind]. rewrite Elsf, (stride_error _ _ _ _ F Hbad EF).
  assert (exists a, s_average (t_base t) = Ok a) as (a & ->); [|reflexivity].
  rewrite Es. cbn [s_average]. unfold average_of, T_of in *. destruct (parse_T (p_T pb) _ _) as [[? ?]|]; [cbn; eauto|discriminate].
Qed.
Print Assumptions C94_meta_error.

(** The default object of any length N >= 4: with Q_fr = 0 it is refused, with Q_fr = (1, 1) it is not implemented; with
    stride_fr = 3 it is constructed and every call fails. *)
Definition with_Q_fr (v : qval) (p : jparams) : jparams :=
  mk_jparams (jp_base p) (jp_J_fr p) v (jp_F p) (jp_stride_fr p) (jp_format p).
Definition with_stride_fr (v : sval) (p : jparams) : jparams :=
  mk_jparams (jp_base p) (jp_J_fr p) (jp_Q_fr p) (jp_F p) v (jp_format p).
Example C94_instance : forall N, 4 <= N ->
  let p := default_jparams 2 N 8 1 TNone "time" in
  TimeFrequencyScattering (fun _ _ => 1) (with_Q_fr (QInt 0) p) "array" = Err ValueError /\
  TimeFrequencyScattering (fun _ _ => 1) (with_Q_fr (QTuple [QI 1; QI 1]) p) "array" = Err NotImplementedError /\
  exists t, jconstructed (fun _ _ => 1) (with_stride_fr (SInt 3) p) "array" t N /\
    bad_stride (SInt 3) TNone /\
    jtfs_scattering np sgnR t (mk_nd Real [3; Z.to_nat N]%nat (repeat (RtoC 1) (3 * Z.to_nat N))) = Err ValueError.
Proof.
  intros N HN p. destruct (default_object (fun _ _ => 1) 2 N 8 1 "array" "time") as [t Ht]; [intros; lia|lia|lia|lia|lia|].
  fold p in Ht. pose proof Ht as (Hsup & H & EN & HN1 & HJ & HJf). pose proof H as H0. apply new_jtfs_inv in H0.
  destruct H0 as (pb & Q_fr & q0 & q1 & F & Epb & EB & _). change pb with pb in EB. subst pb.
  split; [|split].
  - destruct (C94_constructor_errors (fun _ _ => 1) (with_Q_fr (QInt 0) p) "array") as [_ G].
    destruct (G _ EB) as (G1 & _). apply G1. exists 0%Q. split; [now left|reflexivity].
  - destruct (C94_constructor_errors (fun _ _ => 1) (with_Q_fr (QTuple [QI 1; QI 1]) p) "array") as [_ G].
    destruct (G _ EB) as (_ & G2 & _). apply (G2 [QI 1; QI 1] eq_refl); [|discriminate].
    intros (q & [<-|[<-|[]]] & Hq); discriminate.
  - assert (Hb : bad_stride (SInt 3) TNone).
    { split; [discriminate|]. left. intros k Hk Hc. injection Hc as Hc.
      destruct (Z.eq_dec k 0) as [->|]; [discriminate|]. destruct (Z.eq_dec k 1) as [->|]; [discriminate|].
      assert (2 ^ 2 <= 2 ^ k) by (apply Z.pow_le_mono_r; lia). lia. }
    exists {| t_base := t_base t; t_phi_fr := t_phi_fr t; t_psis_fr := t_psis_fr t; t_log2_stride_fr := Err ValueError;
              t_average_fr := t_average_fr t; t_format := t_format t |}.
    assert (Hc : jconstructed (fun _ _ => 1) (with_stride_fr (SInt 3) p) "array"
      {| t_base := t_base t; t_phi_fr := t_phi_fr t; t_psis_fr := t_psis_fr t; t_log2_stride_fr := Err ValueError;
              t_average_fr := t_average_fr t; t_format := t_format t |} N).
    { split; [exact Hsup|]. split; [|repeat split; assumption]. revert H. unfold new_jtfs. cbn zeta.
      cbn [with_stride_fr jp_base jp_J_fr jp_Q_fr jp_F jp_stride_fr jp_format].
      intros H. inv_bind H. inv_bind H. inv_bind H. inv_bind H. inv_bind H. inv_bind H. destruct v4 as [phi psis].
      rewrite E, E0, E1. cbn [bind]. rewrite E2. cbn [bind]. rewrite E3. cbn [bind]. rewrite E4. cbn [bind]. injection H; intros <-.
      cbn [t_base t_phi_fr t_psis_fr t_average_fr t_format]. reflexivity. }
    split; [exact Hc|]. split; [exact Hb|].
    destruct (C94_call_errors _ _ _ _ _ Hc) as [_ G]. destruct (G Hb) as [_ G2]. apply (G2 _ [3%nat]); [|reflexivity].
    unfold nd_wf; cbn; rewrite repeat_length; lia.
Qed.
