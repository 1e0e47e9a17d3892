(** Properties C40 and C41: joint time-frequency scattering runs on its default configurations; rows and labels. *)
From Coq Require Import String Reals ZArith QArith Qpower Qminmax List Bool Arith Lia Lra.
From Coquelicot Require Import Complex.
From Verif Require Import Base BaseProofs NdArray StackProofs Backend Core1d Utils1d Utils1dProofs Frontend1d Frontend1dProofs NdProofs Rows1d FrontRows Mats
  Factory1d FactoryProofs ComplexOps FilterBank1d FilterBank1dProofs Construct1d Shape1d PropFilters1d PropShapes1d Dft Conv1d Value1d Tabulated1d PropNumerics1d
  Jtfs JtfsFront JtfsProofs JtfsKeys JtfsRows JtfsFmt JtfsFull JtfsConstruct JtfsMeta JtfsTotal PropJtfs JtfsReady JtfsRun SpecJtfsValue JtfsValue JtfsCoef PropJtfsValues.
Import ListNotations.
Local Open Scope Z_scope.
Local Open Scope res_scope.

(** T and F are left at their default values 2**J and 2**J_fr; the strides too, or they are 2**ls with ls the largest scale
    of the wavelets or more (and the same in frequency). *)
Definition stride_ok (s : sval) (J k : Z) : Prop := (s = SNone /\ k = J) \/ (s = SInt (2 ^ k) /\ Z.max (J - 1) 0 <= k <= J).
Definition defaults (p : jparams) (ls lsf : Z) : Prop :=
  p_T (jp_base p) = TNone /\ jp_F p = TNone /\ stride_ok (p_stride (jp_base p)) (p_J (jp_base p)) ls /\ stride_ok (jp_stride_fr p) (jp_J_fr p) lsf.
Lemma stride_ok_log2 s J N k : 0 <= J -> stride_ok s J k -> log2_stride_of s TNone J N = Ok k.
Proof.
  intros HJ [(-> & ->)|(-> & Hk)]; cbn [log2_stride_of].
  - unfold log2_T_of, T_of. cbn. now rewrite log2_floor_pow2.
  - pose proof (pow2_pos k ltac:(lia)). destruct (Z.leb_spec (2 ^ k) 0); [lia|]. rewrite Z.log2_pow2 by lia. now rewrite Z.eqb_refl.
Qed.
(** Q1 and Q2 are integers with Q2 <= Q1. *)
Definition int_Q (p : jparams) : Prop := exists q1 q2, Q_of (p_Q (jp_base p)) = Ok [QI q1; QI q2] /\ 1 <= q2 <= q1.

Lemma default_aligned support p out t N ls lsf : jconstructed support p out t N -> defaults p ls lsf -> int_Q p ->
  aligned p t N ls Local lsf Local /\ f_j (t_phi_fr t) = jp_J_fr p.
Proof.
  intros (Hsup & H & EN & HN & HJ & HJf) (D1 & D3 & D2 & D4) (q1 & q2 & EQ & Hq).
  pose proof H as H0. apply new_jtfs_inv in H0.
  destruct H0 as (pb & Q_fr & q0 & q1' & F & Epb & EB & EQf & EQ' & ET & HNf & Elsf & Eaf & _ & Ephi & _).
  rewrite D3 in *. cbn in ET. assert (EF : F = Qpower 2 (jp_J_fr p)) by (unfold T_of in ET; cbn in ET; congruence).
  pose proof (factory_inv1 _ _ _ _ _ _ _ _ _ Ephi ltac:(cbn; lia)) as (Fj & _).
  rewrite EF, log2_floor_pow2 in Fj by exact HJf.
  assert (EQ2 : Q_of (p_Q pb) = Ok [QI q1; QI q2]) by (subst pb; exact EQ).
  destruct (new_banks support pb out _ EB q1 q2 EQ2) as (_ & B2 & _ & B4).
  pose proof (new_jtfs_spun _ _ _ _ HJf H) as [_ Hsc]. rewrite Forall_forall in Hsc.
  pose proof EB as EB1. apply new_inv in EB1. destruct EB1 as (b & Qs & T & l2T & phi & psi1s & psi2s & Hb & _ & ETb & El2T & _ & _ & Es).
  destruct (build_inv _ _ _ Hb) as (st & T0 & l0 & r0 & EN' & Eov & _ & _ & Eb).
  assert (EbN : b_N b = N) by (subst pb; cbn in EN'; congruence). rewrite EbN in *.
  assert (Est : b_stride b = p_stride (jp_base p)). { rewrite Eb. cbn [b_stride]. subst pb. cbn in Eov. congruence. }
  assert (El2 : l2T = p_J (jp_base p)). { subst pb. cbn [p_T p_J] in El2T. rewrite D1 in El2T. unfold log2_T_of, T_of in El2T. cbn in El2T. rewrite log2_floor_pow2 in El2T by exact HJ. congruence. }
  split; [|exact Fj]. constructor; try assumption.
  - exists q1, q2. auto.
  - rewrite Es. cbn [s_log2_stride]. rewrite Est. subst pb. cbn [p_T p_J]. rewrite D1. now apply stride_ok_log2.
  - rewrite Es. cbn [s_average]. subst pb. cbn [p_T p_J]. rewrite D1. reflexivity.
  - rewrite Elsf. now apply stride_ok_log2.
  - intros _. split.
    + intros f Hf. rewrite Forall_forall in B4. rewrite (B4 f Hf). pose proof (in_map params_of _ _ Hf) as I. rewrite B2 in I.
      assert (EJ : p_J pb = p_J (jp_base p)) by (subst pb; reflexivity). rewrite EJ in I.
      unfold params_of in I. assert (Hq2 : 1 <= q2) by lia. destruct (anden_elem (p_J (jp_base p)) q2 _ _ HJ Hq2 (anden_list_ok _ _ HJ Hq2) I) as [Hx Hs]. cbn [fst snd] in Hx, Hs.
      rewrite Hs. eapply Z.le_trans; [apply (scale_le (p_J (jp_base p)) q2); [exact HJ|lia|lra]|destruct D2 as [(_ & ->)|(_ & D2)]; lia].
    + exists l2T. split; [|destruct D2 as [(_ & ->)|(_ & D2)]; lia]. subst pb. exact El2T.
  - intros _. split; [destruct D4 as [(_ & ->)|(_ & D4)]; lia|]. intros psi Hpsi Hs0.
    destruct (new_jtfs_bank _ _ _ _ HJf H) as (low & pos & neg & Ebk & Hx & _ & _ & Hn & Hps). rewrite Forall_forall in Hps.
    enough (f_j psi <= Z.max (jp_J_fr p - 1) 0) by (destruct D4 as [(_ & ->)|(_ & D4)]; lia).
    rewrite Ebk in Hpsi. destruct Hpsi as [<-|Hp]; [rewrite Hx, sgnR_0 in Hs0; congruence|]. apply in_app_iff in Hp as [Hp|Hp]; [apply Hps, Hp|].
    pose proof (in_map (fun f => (f_xi f, f_sigma f, f_j f)) _ _ Hp) as I. rewrite Hn in I. apply in_map_iff in I as (g & Eg & Hg).
    injection Eg as _ _ <-. apply Hps, Hg.
  - destruct (C38_padding_partial support p out t q1 (QI q2) F HJ HJf H EQ) as (_ & _ & _ & G).
    { rewrite D3. unfold T_of. cbn. congruence. }
    specialize (G D3). pose proof (pow2_pos (jp_J_fr p) HJf). lia.
Qed.

(** Number of time samples kept at resolution [2^res], and of frequency rows at resolution [2^J_fr]. *)
Definition time_samples (t : jtfs (nd C) R) (N res : Z) : nat :=
  Z.to_nat (cdiv (s_pad_left (t_base t) + N) (2 ^ res) - cdiv (s_pad_left (t_base t)) (2 ^ res)).
Definition frequency_rows (t : jtfs (nd C) R) (J_fr : Z) : nat := (bins t / 2 ^ Z.to_nat J_fr)%nat.

Lemma kept_len (l n Np res : nat) : (0 < Z.of_nat (p2 (Z.of_nat res))) -> Nat.divide (p2 (Z.of_nat res)) Np -> (l + n <= Np)%nat ->
  (Nat.min (jhi n l (Z.of_nat res)) (Np / p2 (Z.of_nat res)) - Nat.min (jlo l (Z.of_nat res)) (Np / p2 (Z.of_nat res)))%nat =
  Z.to_nat (cdiv (Z.of_nat l + Z.of_nat n) (2 ^ Z.of_nat res) - cdiv (Z.of_nat l) (2 ^ Z.of_nat res)).
Proof.
  intros Hp [m Hm] Hle. unfold jhi, jlo. rewrite Nat2Z.inj_add. pose proof (p2_Z (Z.of_nat res) ltac:(lia)) as Ep. rewrite <- Ep in *.
  assert (Em : (Np / p2 (Z.of_nat res) = m)%nat) by (rewrite Hm; apply Nat.div_mul; lia). rewrite Em.
  set (d := Z.of_nat (p2 (Z.of_nat res))) in *.
  assert (U : forall i, 0 <= i <= d * Z.of_nat m -> 0 <= cdiv i d <= Z.of_nat m).
  { intros i Hi. unfold cdiv. pose proof (Z.div_le_upper_bound (- i) d 0 ltac:(lia)). pose proof (Z.div_le_lower_bound (- i) d (- Z.of_nat m) ltac:(lia)). nia. }
  pose proof (U (Z.of_nat l) ltac:(nia)). pose proof (U (Z.of_nat l + Z.of_nat n) ltac:(nia)). lia.
Qed.

Lemma tcut_row_length n l ls a q c (row : list C) : List.length row = c -> List.length (tcut n l ls a q row) = tcut_len n l ls a q c.
Proof. intros E. unfold tcut, tcut_len. destruct a; rewrite ?slice_length, E; reflexivity. Qed.
(** Shapes of the paths made from an entry. *)
Lemma out_paths_shape t n l r mx ls a Nfr lsf af batch rows e q :
  jready sgnR t n l r mx ls a Nfr lsf af -> rows_ok batch n rows ->
  In e (entries complex_ops sgnR t n l r ls a Nfr lsf af) -> In q (out_paths complex_ops t n l r ls a lsf af batch rows e) ->
  nd_wf (q_coef q) /\
  if String.eqb (t_format t) "joint" then nd_shape (q_coef q) = batch ++ [jrows t lsf af e; tcut_len n l ls a (joint_q lsf af e) (jcols ls a e)]
  else exists k, (k < nlabels lsf af (e_q e))%nat /\ q = set_coef (q_coef q) (time_q lsf af e k) /\
         nd_shape (q_coef q) = batch ++ [tcut_len n l ls a (time_q lsf af e k) (jcols ls a e)].
Proof.
  intros Hr Rx He Hq.
  assert (Hok : forall y, mat_ok (jrows t lsf af e) (jcols ls a e) (jmat complex_ops t n l r ls a lsf af e y)).
  { intros y. exact (jmat_ok complex_ops complex_ops_ok sgnR t _ _ _ _ _ _ _ _ _ Hr e y He). }
  unfold out_paths in Hq. destruct (String.eqb (t_format t) "joint") eqn:Efmt.
  - destruct Hq as [<-|[]]. cbn [set_coef q_coef].
    split; [|cbn [of_rows nd_shape]; now rewrite <- app_assoc].
    apply of_rows_wf. destruct Rx as [Rx1 Rx2]. split.
    + rewrite (concat_len (jrows t lsf af e)), map_length, Rx1, prod_snoc; [reflexivity|].
      apply Forall_map, Forall_forall. intros y _. rewrite map_length. apply Hok.
    + apply Forall_forall. intros row Hrow. apply in_concat in Hrow as (M & HM & Hrow). apply in_map_iff in HM as (y & <- & _).
      apply in_map_iff in Hrow as (v & <- & Hv). destruct (Hok y) as [_ O2]. rewrite Forall_forall in O2. apply tcut_row_length. now apply O2.
  - apply in_map_iff in Hq as (k & <- & Hk). apply in_seq in Hk. cbn [set_coef q_coef].
    split; [|exists k; split; [lia|split; reflexivity]].
    apply of_rows_wf. eapply rows_ok_map; [|exact Rx]. intros y _. apply tcut_row_length. destruct (Hok y) as [O1 O2]. rewrite Forall_forall in O2. apply O2, nth_In.
    rewrite O1. unfold jrows, ulen, joint_array. rewrite Efmt, andb_false_r.
    pose proof (entries_labels complex_ops complex_ops_ok sgnR t _ _ _ _ _ _ _ _ _ Hr e He) as HL.
    pose proof (entries_fmt complex_ops complex_ops_ok sgnR t _ _ _ _ _ _ _ _ _ Hr e He) as HF.
    pose proof (fo_s _ _ _ _ _ _ _ _ _ _ HF). pose proof (fo_max _ _ _ _ _ _ _ _ _ _ HF).
    apply Nat.min_glb_lt; [|lia]. unfold nlabels in Hk. set (s := estride lsf af (e_q e)) in *.
    assert ((q_n1_max (e_q e) + s - 1) / s <= 1 + q_n1_max (e_q e) / s)%Z; [|lia].
    replace (1 + q_n1_max (e_q e) / s)%Z with ((q_n1_max (e_q e) + 1 * s) / s)%Z by (rewrite Z.div_add by lia; lia). apply Z.div_le_mono; lia.
Qed.

Section Default.
Variables (support : Z -> Q -> Z) (p : jparams) (out : string) (t : jtfs (nd C) R) (N ls lsf : Z) (batch : list nat) (x : nd C).
Hypotheses (Hc : jconstructed support p out t N) (Hd : defaults p ls lsf) (HQ : int_Q p).
Hypotheses (Hout : In out ["array"; "list"; "dict"]%string) (Hfmt : In (jp_format p) ["joint"; "time"]%string).
Hypotheses (Hw : nd_wf x) (Hdt : nd_dtype x = Real) (Hsh : nd_shape x = batch ++ [Z.to_nat N]).
Notation T' := (time_samples t N ls).
Notation F' := (frequency_rows t lsf).

Lemma default_attrs : s_out_type (t_base t) = out /\ t_format t = jp_format p /\ jcheck_runtime_args t = Ok tt.
Proof.
  destruct (default_aligned _ _ _ _ _ _ _ Hc Hd HQ) as [A _]. destruct Hc as (_ & H & _).
  apply new_jtfs_inv in H. destruct H as (pb & Q_fr & q0 & q1 & F & _ & EB & _ & _ & _ & _ & _ & _ & Ef & _).
  apply new_inv in EB. destruct EB as (b & Qs & T & l2T & phi & psi1s & psi2s & _ & _ & _ & _ & _ & _ & Es).
  assert (Eo : s_out_type (t_base t) = out) by (rewrite Es; reflexivity). split; [exact Eo|]. split; [exact Ef|].
  unfold jcheck_runtime_args, check_runtime_args. rewrite Eo, Ef, (al_avg _ _ _ _ _ _ _ A), (al_avg_fr _ _ _ _ _ _ _ A).
  destruct Hout as [<-|[<-|[<-|[]]]]; destruct Hfmt as [E|[E|[]]]; rewrite <- E; reflexivity.
Qed.

Lemma default_paths : exists p0 S, jpaths np sgnR t x = Ok (p0, S) /\ S <> [] /\
  nd_wf (p_coef p0) /\ nd_shape (p_coef p0) = batch ++ [T'] /\
  forall q, In q S -> nd_wf (q_coef q) /\
    (jp_format p = "joint"%string -> exists R, nd_shape (q_coef q) = batch ++ [R; T'] /\ (out = "array"%string -> R = F')) /\
    (jp_format p = "time"%string -> nd_shape (q_coef q) = batch ++ [T']).
Proof.
  destruct default_attrs as (Eo & Ef & Hchk). destruct (default_aligned _ _ _ _ _ _ _ Hc Hd HQ) as [A Ephi].
  pose proof Hc as (Hsup & H & EN & HN & HJ & HJf).
  destruct (new_jready _ _ _ _ _ _ _ _ _ Hsup H A) as (l & r & mx & Hr).
  destruct (of_rows_intro x batch (Z.to_nat N) Hw Hsh) as (rows & Ex & Rx). rewrite Hdt in Ex.
  pose proof (jpaths_rows complex_ops complex_ops_ok sgnR t _ _ _ _ _ _ _ _ _ Hr batch rows Rx Hchk) as E. rewrite <- Ex in E.
  pose proof (al_stride_fr _ _ _ _ _ _ _ A). set (J := ls) in *. set (Jf := lsf) in *. set (Nfr := Z.to_nat (f_N (t_phi_fr t))) in *.
  pose proof (jr_time _ _ _ _ _ _ _ _ _ _ _ Hr) as HT. pose proof (jr_fr _ _ _ _ _ _ _ _ _ _ _ Hr) as HF.
  assert (ET : T' = Z.to_nat (cdiv (Z.of_nat l + Z.of_nat (Z.to_nat N)) (2 ^ J) - cdiv (Z.of_nat l) (2 ^ J))).
  { unfold time_samples. rewrite (jr_left _ _ _ _ _ _ _ _ _ _ _ Hr). rewrite Z2Nat.id by lia. reflexivity. }
  pose proof (jt_ls _ _ _ _ _ _ HT) as HJ0. assert (HJf0 : 0 <= Jf) by exact (ok_stride _ _ (constructed_jtfs_ok _ _ _ _ HJ HJf H) Jf (al_stride_fr _ _ _ _ _ _ _ A)).
  assert (Hkept : (Nat.min (jhi (Z.to_nat N) l J) ((l + Z.to_nat N + r) / p2 J) - Nat.min (jlo l J) ((l + Z.to_nat N + r) / p2 J))%nat = T').
  { rewrite ET. replace J with (Z.of_nat (Z.to_nat J)) by lia. apply kept_len.
    - pose proof (p2_pos (Z.of_nat (Z.to_nat J))). lia.
    - replace (Z.of_nat (Z.to_nat J)) with J by lia. apply (jt_div _ _ _ _ _ _ HT).
    - lia. }
  eexists _, _. split; [exact E|]. cbn [p_coef].
  destruct (new_jtfs_bank _ _ _ _ HJf H) as (low & pos & neg & Eb & Hx & Hj & _).
  split; [|split; [|split]].
  - (* the low-pass alone gives a path *)
    set (e0 := entry_of complex_ops sgnR Nfr Jf Local [-1] [] (List.length (s_psi1 (t_base t))) ((l + Z.to_nat N + r) / p2 J)
                 (time1 complex_ops (s_phi (t_base t)) (s_psi1 (t_base t)) (l + Z.to_nat N + r) J true) (0%nat, low)).
    assert (He : In e0 (entries complex_ops sgnR t (Z.to_nat N) l r J Local Nfr Jf Local)).
    { unfold entries. apply in_app_iff. left. apply in_map, In_enumerate. rewrite Eb. unfold nonneg. cbn [List.filter]. now rewrite Hx, sgnR_0. }
    pose proof (entries_labels complex_ops complex_ops_ok sgnR t _ _ _ _ _ _ _ _ _ Hr e0 He) as HL.
    assert (exists q, In q (out_paths complex_ops t (Z.to_nat N) l r J Local Jf Local batch rows e0)) as (q & Hq).
    { unfold out_paths. destruct (String.eqb _ _); [eexists; left; reflexivity|].
      eexists. apply in_map with (x := 0%nat). apply in_seq. lia. }
    intros E0. assert (I : In q []) by (rewrite <- E0; apply in_flat_map; exists e0; split; assumption). destruct I.
  - apply of_rows_wf. eapply rows_ok_map; [|exact Rx]. intros y _. unfold zeroth, zeroth_len.
    now rewrite slice_length, (r_low_length complex_ops complex_ops_ok).
  - cbn [of_rows nd_shape]. unfold zeroth_len. now rewrite Hkept.
  - intros q Hq. apply in_flat_map in Hq as (e & He & Hq).
    destruct (out_paths_shape _ _ _ _ _ _ _ _ _ _ _ _ _ _ Hr Rx He Hq) as (W & Sh). split; [exact W|].
    assert (Ecols : jcols J Local e = ((l + Z.to_nat N + r) / p2 J)%nat).
    { unfold jcols, tlen. destruct (entries_ok complex_ops complex_ops_ok sgnR t _ _ _ _ _ _ _ _ _ Hr e He) as (wj & wn & m & c & G & nfr & psi & -> & _ & _ & _ & _ & Hcase).
      cbn [entry_of e_q e_n slot fst snd]. unfold second, jlast. cbn [q_n q_j].
      destruct Hcase as [(-> & -> & ->)|(n2 & f2 & _ & _ & -> & -> & -> & Hj2)]; [reflexivity|]. cbn [app List.length Nat.ltb Nat.leb List.last].
      apply p2_divide; [exact Hj2|apply (jt_div _ _ _ _ _ _ HT)]. }
    assert (Etc : forall q', tcut_len (Z.to_nat N) l J Local q' (jcols J Local e) = T') by (intros q'; unfold tcut_len, tres; cbn [is_none_avg andb]; rewrite Ecols; exact Hkept).
    rewrite Ef in Sh. split; intros Efm; rewrite Efm in Sh; cbn [String.eqb Ascii.eqb Bool.eqb] in Sh.
    2:{ destruct Sh as (k & _ & _ & Sh). now rewrite Etc in Sh. }
    rewrite Etc in Sh.
    exists (jrows t Jf Local e). split; [exact Sh|]. intros Eout. unfold jrows, ulen, joint_array. rewrite Eo, Eout, Ef, Efm. cbn [String.eqb Ascii.eqb Bool.eqb andb].
    destruct (entries_ok complex_ops complex_ops_ok sgnR t _ _ _ _ _ _ _ _ _ Hr e He) as (wj & wn & m & c & G & nfr & psi & -> & Hpsi & _).
    unfold flen, kphi. cbn [entry_of e_q e_m slot fst snd q_spin q_j_fr]. unfold kf. cbn [is_local_avg]. rewrite Ephi.
    pose proof (new_jtfs_spun _ _ _ _ HJf H) as [_ Hsc]. rewrite Forall_forall in Hsc. specialize (Hsc psi Hpsi). cbn beta in Hsc.
    change (frequency_rows t Jf) with (Nfr / p2 Jf)%nat.
    destruct (Z.eqb_spec (sgnR (f_xi psi)) 0) as [E0|E0].
    + do 2 f_equal. assert (Jf <= jp_J_fr p) by (destruct Hd as (_ & _ & _ & [(_ & Gd)|(_ & Gd)]); subst Jf; lia). enough (f_j psi = jp_J_fr p) by lia.
      destruct (new_jtfs_spun _ _ _ _ HJf H) as [(low' & pos' & neg' & Eb' & _ & Sp & Sn) _]. rewrite Eb in Eb'. injection Eb' as E1 E2.
      rewrite Eb, E2 in Hpsi. rewrite Forall_forall in Sp, Sn.
      destruct Hpsi as [<-|Hp]; [exact Hj|]. apply in_app_iff in Hp as [Hp|Hp]; [specialize (Sp psi Hp)|specialize (Sn psi Hp)]; lia.
    + destruct (al_fr _ _ _ _ _ _ _ A eq_refl) as [_ Ga]. specialize (Ga psi Hpsi E0). rewrite !Z.min_l by lia.
      apply p2_divide; [lia|]. apply (jr_aligned _ _ _ _ _ _ _ _ _ _ _ Hr eq_refl psi Hpsi E0).
Qed.
End Default.

(** ** C41 *)
(** With T and F at their defaults, strides as in [defaults] (the default ones among them) and integers Q2 <= Q1, every
    constructed object runs on every real batch, in both formats and the three output types, and the stacked arrays have the announced shapes; entry [k] of
    the stack is path [k].  Missing: that the other strides never return rows under wrong labels, which is false
    ([C40_lowpass_rows_refuted]). *)
Theorem C41_default_configurations_partial : forall support p out t N ls lsf batch x,
  jconstructed support p out t N -> defaults p ls lsf -> int_Q p ->
  In out ["array"; "list"; "dict"]%string -> In (jp_format p) ["joint"; "time"]%string ->
  nd_wf x -> nd_dtype x = Real -> nd_shape x = batch ++ [Z.to_nat N] ->
  let T' := time_samples t N ls in let F' := frequency_rows t lsf in
  exists p0 S y, jpaths np sgnR t x = Ok (p0, S) /\ jtfs_scattering np sgnR t x = Ok y /\
    nd_shape (p_coef p0) = batch ++ [T'] /\
    (jp_format p = "time"%string -> forall q, In q S -> nd_shape (q_coef q) = batch ++ [T']) /\
    (jp_format p = "joint"%string -> forall q, In q S -> exists R, nd_shape (q_coef q) = batch ++ [R; T']) /\
    (out = "list"%string -> y = JList p0 S) /\
    (out = "dict"%string -> y = JDict ((p_n p0, p_coef p0) :: map (fun q => (q_n q, q_coef q)) S)) /\
    (out = "array"%string -> jp_format p = "joint"%string -> exists arr, y = JArray arr /\
      nd_shape arr = batch ++ [List.length S; F'; T'] /\
      forall i k, (i < prod batch)%nat -> (k < List.length S)%nat -> forall d,
        signal (F' * T') (i * List.length S + k) arr = signal (F' * T') i (q_coef (nth k S d))) /\
    (out = "array"%string -> jp_format p = "time"%string -> exists arr, y = JArray arr /\
      nd_shape arr = batch ++ [1 + List.length S; T']%nat /\
      forall i k, (i < prod batch)%nat -> (k < 1 + List.length S)%nat -> forall d,
        signal T' (i * (1 + List.length S) + k) arr = signal T' i (nth k (p_coef p0 :: map q_coef S) d)).
Proof.
  intros support p out t N ls lsf batch x Hc Hd HQ Hout Hfmt Hw Hdt Hsh T' F'.
  destruct (default_attrs _ _ _ _ _ _ _ Hc Hd HQ Hout Hfmt) as (Eo & Ef & Hchk).
  destruct (default_paths _ _ _ _ _ _ _ _ _ Hc Hd HQ Hout Hfmt Hw Hdt Hsh) as (p0 & S & EP & HS & W0 & Sh0 & HP). fold T' in Sh0, HP. fold F' in HP.
  exists p0, S. unfold jtfs_scattering. rewrite EP. cbn [bind]. unfold jcontainer. rewrite Eo, Ef.
  assert (Hjs : jp_format p = "joint"%string -> forall q, In q S -> exists R, nd_shape (q_coef q) = batch ++ [R; T']).
  { intros E q Hq. destruct (HP q Hq) as (_ & G & _). destruct (G E) as (R & G1 & _). now exists R. }
  assert (Hts : jp_format p = "time"%string -> forall q, In q S -> nd_shape (q_coef q) = batch ++ [T']).
  { intros E q Hq. destruct (HP q Hq) as (_ & _ & G). exact (G E). }
  destruct Hout as [<-|[<-|[<-|[]]]]; cbn [String.eqb Ascii.eqb Bool.eqb bind].
  - destruct Hfmt as [E|[E|[]]]; rewrite <- E in *; cbn [String.eqb Ascii.eqb Bool.eqb].
    + destruct (stack_blocks (map q_coef S) batch [F'; T'] (-3)) as (arr & E1 & E2 & E3); [destruct S; [congruence|discriminate]|reflexivity| |].
      { intros y Hy. apply in_map_iff in Hy as (q & <- & Hq). destruct (HP q Hq) as (G0 & G & _). split; [exact G0|].
        destruct (G eq_refl) as (R & G1 & G2). now rewrite G1, (G2 eq_refl). }
      cbn [numpy_backend be_stack]. rewrite E1. cbn [bind]. exists (JArray arr). rewrite map_length in E2, E3.
      repeat (split; [first [reflexivity|assumption|discriminate]|]). split; [|discriminate].
      intros _ _. exists arr. split; [reflexivity|]. split; [exact E2|]. intros i k Hi Hk d.
      specialize (E3 i k Hi Hk (q_coef d)). rewrite map_nth in E3. replace (prod [F'; T']) with (F' * T')%nat in E3 by (cbn; lia). exact E3.
    + destruct (stack_blocks (p_coef p0 :: map q_coef S) batch [T'] (-2)) as (arr & E1 & E2 & E3); [discriminate|reflexivity| |].
      { intros y [<-|Hy]; [split; assumption|]. apply in_map_iff in Hy as (q & <- & Hq). destruct (HP q Hq) as (G0 & _ & G). split; [exact G0|]. exact (G eq_refl). }
      cbn [numpy_backend be_stack]. rewrite E1. cbn [bind]. exists (JArray arr). cbn [List.length] in E2, E3. rewrite map_length in E2, E3.
      repeat (split; [first [reflexivity|assumption|discriminate]|]).
      intros _ _. exists arr. split; [reflexivity|]. split; [exact E2|]. intros i k Hi Hk d.
      specialize (E3 i k Hi Hk d). replace (prod [T']) with T' in E3 by (cbn; lia). exact E3.
  - eexists. split; [reflexivity|]. split; [reflexivity|]. split; [exact Sh0|]. split; [exact Hts|]. split; [exact Hjs|].
    split; [reflexivity|]. split; [discriminate|]. split; discriminate.
  - eexists. split; [reflexivity|]. split; [reflexivity|]. split; [exact Sh0|]. split; [exact Hts|]. split; [exact Hjs|].
    split; [discriminate|]. split; [|split; discriminate]. intros _. f_equal.
    destruct Hc as (_ & H & _ & _ & HJ & HJf).
    pose proof (constructed_jtfs_ok _ _ _ _ HJ HJf H) as OK.
    destruct (jpaths_keys np sgnR _ x p0 S OK EP) as (ls_fr & a_fr & _ & _ & _ & _ & Hk).
    rewrite jdict_fold; [reflexivity|]. cbn [dict_set map fst app]. rewrite Hk. apply jkeys_NoDup.
Qed.
Print Assumptions C41_default_configurations_partial.

(** ** C40 *)
Lemma value_at_bin (phi : Core1d.filter (nd C) R) ls a phi_fr Nfr lsf af j2 rows psi spin c r n1 v m :
  0 <= f_j psi -> 0 <= lsf -> (r < freq_rows Nfr lsf af spin (fr_rate lsf af psi))%nat ->
  spin <> 0 \/ af <> Local \/ f_j psi <= lsf ->
  Z.of_nat n1 = Z.of_nat r * fr_stride lsf af spin (f_j psi) m ->
  joint_value phi ls a phi_fr Nfr lsf af j2 rows psi spin (fr_rate lsf af psi) c r v =
  joint_at phi ls a phi_fr Nfr af j2 rows psi spin (fr_rate lsf af psi) c n1 v.
Proof.
  intros Hj Hl Hr Hcase Hn. unfold joint_value, joint_at, freq_rows, fr_stride in *. set (kf := fr_rate lsf af psi) in *.
  assert (P : forall k, 0 <= k -> 2 ^ k = Z.of_nat (2 ^ Z.to_nat k)) by (intros k Hk; rewrite Nat2Z.inj_pow, Z2Nat.id by exact Hk; reflexivity).
  assert (Hbin : fr_rate lsf af psi = f_j psi -> (2 ^ Z.to_nat kf * r)%nat = Z.to_nat (Z.of_nat r * 2 ^ f_j psi)).
  { intros E. unfold kf. rewrite E, P by exact Hj. rewrite <- Nat2Z.inj_mul, Nat2Z.id. lia. }
  destruct (Z.eqb_spec spin 0) as [E0|E0].
  - unfold averaged_row. rewrite Hbin, <- Hn, Nat2Z.id; [reflexivity|]. unfold fr_rate. destruct af; try reflexivity. destruct Hcase as [|[|]]; try congruence; lia.
  - destruct af.
    + unfold freq_average, averaged_row. set (col := map _ _).
      assert (Hcol : List.length col = (Nfr / 2 ^ Z.to_nat kf)%nat) by (unfold col; now rewrite map_length, seq_length).
      rewrite <- (Nat2Z.id r) at 1. rewrite at_lowpass by (rewrite sampled_lowpass_length, Hcol; lia). do 3 f_equal.
      assert (K : 0 <= kf <= lsf) by (unfold kf, fr_rate; lia).
      assert (E : 2 ^ lsf = 2 ^ (lsf - kf) * 2 ^ kf) by (rewrite <- Z.pow_add_r by lia; f_equal; lia).
      rewrite Nat2Z.inj_div, Hn, E, <- !P by lia. rewrite Z.mul_assoc, Z.div_mul by (pose proof (pow2_pos kf); lia).
      lia.
    + assert (r = 0%nat) as -> by lia. unfold freq_average, at_ at 1. cbn [nth]. reflexivity.
    + cbn [freq_average]. rewrite at_map_seq by exact Hr. unfold averaged_row. rewrite Hbin, <- Hn, Nat2Z.id; reflexivity.
Qed.

Lemma source_psi t Np ls a ns psi j2 rows c m : source t Np ls a ns psi j2 rows c m -> In psi (t_psis_fr t).
Proof. intros [nf psi' H|n2 nf f2 psi' _ H]; apply nth_error_In in H; [now apply filter_In in H|exact H]. Qed.
Lemma scales_nonneg support p out t N ls a lsf af : jconstructed support p out t N -> modes t ls a lsf af ->
  0 <= lsf /\ forall psi, In psi (t_psis_fr t) -> 0 <= f_j psi.
Proof.
  intros (_ & H & _ & _ & HJ & HJf) (_ & _ & E & _). split; [exact (ok_stride _ _ (constructed_jtfs_ok _ _ _ _ HJ HJf H) lsf E)|].
  destruct (new_jtfs_spun _ _ _ _ HJf H) as [_ Hs]. rewrite Forall_forall in Hs. intros psi Hp. apply Hs, Hp.
Qed.

(** Format 'joint'.  A path of [n1_max] = m and [n1_stride] = s is labelled with the multiples of [s] below [m]: there
    is a row for every label, at most one more (with the output types that unpad), and row [r] holds the coefficient at
    bin [n1 = r*s].  The last part needs that the lowpass filter psi_fr (spin 0) is not sampled more finely than its
    labels say; see [C40_lowpass_rows_refuted] for the other case. *)
Theorem C40_rows_and_labels_partial : forall support p out t N batch x p0 S ls a lsf af q,
  jconstructed support p out t N -> modes t ls a lsf af -> nd_wf x -> nd_shape x = batch ++ [Z.to_nat N] -> (0 < prod batch)%nat ->
  t_format t = "joint"%string -> jpaths np sgnR t x = Ok (p0, S) -> In q S ->
  exists psi j2 rows c m R L s, source t (padded_length (t_base t) N) ls a (q_n q) psi j2 rows c m /\
    q_n1_max q = Z.of_nat m /\ q_n1_stride q = PInt s /\ 0 < s /\ nd_shape (q_coef q) = batch ++ [R; L] /\
    (forall n1, 0 <= n1 < Z.of_nat m -> (s | n1) -> exists r, (r < R)%nat /\ n1 = Z.of_nat r * s) /\
    (s_out_type (t_base t) <> "array"%string -> forall r, (r + 1 < R)%nat -> Z.of_nat r * s < Z.of_nat m) /\
    (q_spin q <> 0 \/ af <> Local \/ q_j_fr q <= lsf ->
     let start := jstart t a (match a, j2 with NoAvg, Some j => j | _, _ => ls end) in
     forall i r n1 tau, (i < prod batch)%nat -> (r < R)%nat -> (tau < L)%nat -> Z.of_nat n1 = Z.of_nat r * s ->
      at_ (signal L (i * R + r) (q_coef q)) tau =
      joint_at (s_phi (t_base t)) ls a (t_phi_fr t) (bins t) af j2 (rows (padded (t_base t) (signal (Z.to_nat N) i x)))
        psi (q_spin q) (fr_rate lsf af psi) c n1 (start + tau)).
Proof.
  intros support p out t N batch x p0 S ls a lsf af q Hc Hm Hw Hsh Hb Hfmt HS Hq.
  destruct (C64_joint_coefficients _ _ _ _ _ _ _ _ _ _ _ _ _ _ Hc Hm Hw Hsh Hb Hfmt HS Hq)
    as (psi & j2 & rows & c & m & R & L & Hsrc & Hsp & Hjf & Hn1 & Hm0 & Esh & HR & (s & Es & Est & Hs & HRl & HRu) & Hval).
  destruct (scales_nonneg _ _ _ _ _ _ _ _ _ Hc Hm) as [Hlsf Hpsi]. specialize (Hpsi psi (source_psi _ _ _ _ _ _ _ _ _ _ Hsrc)).
  exists psi, j2, rows, c, m, R, L, s. split; [exact Hsrc|]. split; [exact Hn1|]. split; [exact Est|]. split; [exact Hs|]. split; [exact Esh|].
  assert (Hcd : Z.of_nat m <= cdiv (Z.of_nat m) s * s < Z.of_nat m + s).
  { unfold cdiv. pose proof (Z.mul_div_le (- Z.of_nat m) s Hs). pose proof (Z.mul_succ_div_gt (- Z.of_nat m) s Hs). lia. }
  split; [|split].
  - intros n1 Hn [k ->]. assert (0 <= k) by nia. exists (Z.to_nat k). rewrite Z2Nat.id by assumption. split; [|reflexivity]. nia.
  - intros Ho r Hrr. specialize (HRu Ho). pose proof (Z.mul_div_le (Z.of_nat m) s Hs).
    assert (Z.of_nat r * s <= Z.of_nat m - s) by nia. lia.
  - intros Hcase start i r n1 tau Hi Hrr Ht En. destruct (Hval i r tau Hi Hrr Ht) as [-> _].
    apply (value_at_bin _ _ _ _ _ _ _ _ _ _ _ _ _ _ _ (Z.of_nat m)); try assumption; [lia|now rewrite <- Hjf|now rewrite <- Hjf, <- Es].
Qed.
Print Assumptions C40_rows_and_labels_partial.

(** Format 'time': the path labelled [n1 :: ns] holds the coefficient at bin [n1], and [n1 < n1_max]. *)
Theorem C40_time_labels_partial : forall support p out t N batch x p0 S ls a lsf af q,
  jconstructed support p out t N -> modes t ls a lsf af -> nd_wf x -> nd_shape x = batch ++ [Z.to_nat N] -> (0 < prod batch)%nat ->
  t_format t = "time"%string -> jpaths np sgnR t x = Ok (p0, S) -> In q S -> q_spin q <> 0 \/ af <> Local \/ q_j_fr q <= lsf ->
  exists n1 ns psi j2 rows c m L, q_n q = n1 :: ns /\ source t (padded_length (t_base t) N) ls a ns psi j2 rows c m /\ (n1 < m)%nat /\
    nd_shape (q_coef q) = batch ++ [L] /\
    let start := jstart t a (match a, j2 with NoAvg, Some j => j | NoAvg, None => 0 | _, _ => ls end) in
    forall i tau, (i < prod batch)%nat -> (tau < L)%nat ->
      at_ (signal L i (q_coef q)) tau =
      joint_at (s_phi (t_base t)) ls a (t_phi_fr t) (bins t) af j2 (rows (padded (t_base t) (signal (Z.to_nat N) i x)))
        psi (q_spin q) (fr_rate lsf af psi) c n1 (start + tau).
Proof.
  intros support p out t N batch x p0 S ls a lsf af q Hc Hm Hw Hsh Hb Hfmt HS Hq Hcase.
  destruct (C64_time_coefficients _ _ _ _ _ _ _ _ _ _ _ _ _ _ Hc Hm Hw Hsh Hb Hfmt HS Hq)
    as (n1 & ns & psi & j2 & rows & c & m & r & L & En & Hsrc & Hsp & Hjf & Hn1 & HR & Er & Esh & Hval).
  destruct (scales_nonneg _ _ _ _ _ _ _ _ _ Hc Hm) as [Hlsf Hpsi]. specialize (Hpsi psi (source_psi _ _ _ _ _ _ _ _ _ _ Hsrc)).
  exists n1, ns, psi, j2, rows, c, m, L. split; [exact En|]. split; [exact Hsrc|]. split; [exact Hn1|]. split; [exact Esh|].
  intros start i tau Hi Ht. destruct (Hval i tau Hi Ht) as [-> _].
  apply (value_at_bin _ _ _ _ _ _ _ _ _ _ _ _ _ _ _ (Z.of_nat m)); try assumption; [now rewrite <- Hjf|now rewrite <- Hjf].
Qed.
Print Assumptions C40_time_labels_partial.

(** Objects with T and F at their defaults exist. *)
Lemma default_bins M J : 0 <= M -> 0 <= J -> 0 < N_padded_fr_of M J (Qpower 2 J).
Proof.
  intros HM HJ. unfold N_padded_fr_of. rewrite Z.max_l by exact HJ. pose proof (pow2_pos J HJ) as Hp.
  enough (1 <= Qround.Qfloor ((inject_Z M + 8 * Qmin (Qpower 2 J) (Qpower 2 J)) / inject_Z (2 ^ J))) by nia.
  rewrite <- (Qround.Qfloor_Z 1). apply Qround.Qfloor_resp_le.
  assert (E : Qmin (Qpower 2 J) (Qpower 2 J) == inject_Z (2 ^ J)) by (rewrite Q.min_id, Zpower_Qpower by exact HJ; reflexivity). rewrite E.
  apply Qle_shift_div_l; [unfold Qlt; cbn; lia|]. rewrite Qmult_1_l. unfold Qle, Qplus, Qmult, inject_Z. cbn [Qnum Qden Pos.mul]. nia.
Qed.
Lemma default_object support J N q J_fr out format : (forall n t, 0 <= support n t) -> 0 <= J -> 1 <= q -> 2 ^ J <= N -> 0 <= J_fr ->
  exists t, jconstructed support (default_jparams J N q J_fr TNone format) out t N.
Proof.
  intros Hsup HJ Hq HN HJf. pose proof (pow2_pos J HJ).
  destruct (jtfs_instance support J N q J_fr TNone (Qpower 2 J_fr) out format Hsup HJ Hq HN HJf) as [t Ht]; [reflexivity|rewrite log2_floor_pow2 by exact HJf; lia|apply default_bins; nia|].
  exists t. repeat split; try assumption; cbn; lia.
Qed.
Lemma default_int_Q J N q J_fr F format : 1 <= q -> int_Q (default_jparams J N q J_fr F format).
Proof.
  intros Hq. exists q, 1. split; [|lia]. unfold Q_of. cbn [jp_base default_jparams p_Q qval_entries existsb map].
  rewrite (proj2 (Qltb_false _ _)); [reflexivity|]. unfold Qle. cbn. lia.
Qed.
Lemma default_strides J N q J_fr format : defaults (default_jparams J N q J_fr TNone format) J J_fr.
Proof. repeat split; left; split; reflexivity. Qed.

(** A batch of three signals of any length N >= 4, in any format and output type. *)
Example C41_instance : forall N out format, 4 <= N -> In out ["array"; "list"; "dict"]%string -> In format ["joint"; "time"]%string ->
  exists t y, TimeFrequencyScattering (fun _ _ => 1) (default_jparams 2 N 8 1 TNone format) out = Ok t /\
    jtfs_scattering np sgnR t (mk_nd Real [3; Z.to_nat N]%nat (repeat (RtoC 1) (3 * Z.to_nat N))) = Ok y.
Proof.
  intros N out format HN Ho Hf. destruct (default_object (fun _ _ => 1) 2 N 8 1 out format) as [t Ht]; [intros; lia|lia|lia|lia|lia|].
  destruct (C41_default_configurations_partial _ _ _ _ _ _ _ [3%nat] (mk_nd Real [3; Z.to_nat N]%nat (repeat (RtoC 1) (3 * Z.to_nat N))) Ht (default_strides _ _ _ _ _) (default_int_Q 2 N 8 1 TNone format ltac:(lia)))
    as (p0 & S & y & _ & Hy & _); [exact Ho|exact Hf|unfold nd_wf; cbn; rewrite repeat_length; lia|reflexivity|reflexivity|].
  exists t, y. split; [apply Ht|exact Hy].
Qed.

(** The hypotheses of the theorems about values and labels hold for a batch of three ramps of any length N >= 4; no list of
    paths is empty. *)
Example C40_C64_instance : forall N format, 4 <= N -> In format ["joint"; "time"]%string ->
  let x := mk_nd Real [3; Z.to_nat N]%nat (map (fun i => RtoC (INR i)) (seq 0 (3 * Z.to_nat N))) in
  exists t p0 S, jconstructed (fun _ _ => 1) (default_jparams 2 N 8 1 TNone format) "list" t N /\ modes t 2 Local 1 Local /\
    nd_wf x /\ t_format t = format /\ jpaths np sgnR t x = Ok (p0, S) /\ S <> [].
Proof.
  intros N format HN Hf x. destruct (default_object (fun _ _ => 1) 2 N 8 1 "list" format) as [t Ht]; [intros; lia|lia|lia|lia|lia|].
  assert (Hw : nd_wf x) by (unfold nd_wf, x; cbn; rewrite map_length, seq_length; lia).
  assert (Ho : In "list"%string ["array"; "list"; "dict"]%string) by (right; now left).
  pose proof (default_int_Q 2 N 8 1 TNone format ltac:(lia)) as HQ. pose proof (default_strides 2 N 8 1 format) as Hd.
  destruct (default_paths _ _ _ _ _ _ _ [3%nat] x Ht Hd HQ Ho Hf Hw eq_refl eq_refl) as (p0 & S & EP & HS & _).
  destruct (default_aligned _ _ _ _ _ _ _ Ht Hd HQ) as [A _]. destruct (default_attrs _ _ _ _ _ _ _ Ht Hd HQ Ho Hf) as (_ & Ef & _).
  exists t, p0, S. split; [exact Ht|]. split; [split; [|split; [|split]]; apply A|]. split; [exact Hw|]. split; [exact Ef|]. split; [exact EP|exact HS].
Qed.

(** Spin 0 with a frequency stride 2**lsf below 2**J_fr: the labels of the path are the multiples of 2**J_fr, while row
    [r] is the joint modulus at bin [r * 2**lsf]; so row 1, labelled 2**J_fr, is the coefficient of bin 2**lsf.  Such a
    run: J_fr = 1 and stride_fr = 1, everything else at its default. *)
Definition with_stride_fr (p : jparams) (s : sval) : jparams := mk_jparams (jp_base p) (jp_J_fr p) (jp_Q_fr p) (jp_F p) s (jp_format p).
Lemma new_stride_fr support p out t s : TimeFrequencyScattering support p out = Ok t ->
  exists t', TimeFrequencyScattering support (with_stride_fr p s) out = Ok t'.
Proof.
  unfold new_jtfs, with_stride_fr. cbn [jp_base jp_J_fr jp_Q_fr jp_F jp_stride_fr jp_format]. intros H.
  inv_bind H. inv_bind H. inv_bind H. inv_bind H. inv_bind H. inv_bind H. destruct v4 as [phi psis].
  rewrite E. cbn [bind]. rewrite E0. cbn [bind]. rewrite E1. cbn [bind]. rewrite E2. cbn [bind]. rewrite E3. cbn [bind]. rewrite E4. cbn [bind]. eauto.
Qed.

Theorem C40_lowpass_rows_refuted :
  (forall support p out t N batch x p0 S ls a lsf q,
    jconstructed support p out t N -> modes t ls a lsf Local -> nd_wf x -> nd_shape x = batch ++ [Z.to_nat N] -> (0 < prod batch)%nat ->
    t_format t = "joint"%string -> jpaths np sgnR t x = Ok (p0, S) -> In q S -> q_spin q = 0 -> lsf < q_j_fr q ->
    q_n1_stride q = PInt (2 ^ q_j_fr q) /\
    exists psi j2 rows c m R L, source t (padded_length (t_base t) N) ls a (q_n q) psi j2 rows c m /\ nd_shape (q_coef q) = batch ++ [R; L] /\
    let start := jstart t a (match a, j2 with NoAvg, Some j => j | _, _ => ls end) in
    forall i r tau, (i < prod batch)%nat -> (r < R)%nat -> (tau < L)%nat ->
      at_ (signal L (i * R + r) (q_coef q)) tau =
      joint_at (s_phi (t_base t)) ls a (t_phi_fr t) (bins t) Local j2 (rows (padded (t_base t) (signal (Z.to_nat N) i x)))
        psi (q_spin q) (fr_rate lsf Local psi) c (r * 2 ^ Z.to_nat lsf) (start + tau)) /\
  (forall support J N q out batch x, (forall n t, 0 <= support n t) -> 0 <= J -> 1 <= q -> 2 ^ J <= N -> In out ["array"; "list"; "dict"]%string ->
    nd_wf x -> nd_dtype x = Real -> nd_shape x = batch ++ [Z.to_nat N] ->
    let p := with_stride_fr (default_jparams J N q 1 TNone "joint") (SInt 1) in
    exists t p0 S qp, jconstructed support p out t N /\ modes t J Local 0 Local /\ t_format t = "joint"%string /\
      jpaths np sgnR t x = Ok (p0, S) /\ In qp S /\ q_spin qp = 0 /\ q_j_fr qp = 1).
Proof.
  split.
  - intros support p out t N batch x p0 S ls a lsf q Hc Hm Hw Hsh Hb Hfmt HS Hq Hs0 Hlt.
    destruct (C64_joint_coefficients _ _ _ _ _ _ _ _ _ _ _ _ _ _ Hc Hm Hw Hsh Hb Hfmt HS Hq)
      as (psi & j2 & rows & c & m & R & L & Hsrc & Hsp & Hjf & Hn1 & Hm0 & Esh & HR & (s & Es & Est & Hs & HRl & HRu) & Hval).
    split. { rewrite Est, Es, Hs0. reflexivity. }
    exists psi, j2, rows, c, m, R, L. split; [exact Hsrc|]. split; [exact Esh|]. intros start i r tau Hi Hr Ht.
    destruct (Hval i r tau Hi Hr Ht) as [-> _]. rewrite Hs0. unfold joint_value, joint_at. cbn [Z.eqb].
    unfold averaged_row, fr_rate. rewrite Z.min_r by lia. now rewrite Nat.mul_comm.
  - intros support J N q out batch x Hsup HJ Hq HN Hout Hw Hdt Hsh p.
    destruct (default_object support J N q 1 out "joint" Hsup HJ Hq HN ltac:(lia)) as [t0 (_ & Ht0 & EN & H1 & _)].
    destruct (new_stride_fr _ _ _ _ (SInt 1) Ht0) as [t Ht]. fold p in Ht.
    assert (Hc : jconstructed support p out t N) by (repeat split; try assumption; cbn; lia).
    assert (Hd : defaults p J 0) by (repeat split; [left; split; reflexivity|right; split; [reflexivity|cbn; lia]]).
    assert (HQ : int_Q p) by exact (default_int_Q J N q 1 TNone "joint" Hq).
    assert (Hf : In (jp_format p) ["joint"; "time"]%string) by now left.
    destruct (default_attrs _ _ _ _ _ _ _ Hc Hd HQ Hout Hf) as (Eo & Ef & Hchk).
    destruct (default_aligned _ _ _ _ _ _ _ Hc Hd HQ) as [A Ephi].
    destruct (new_jready _ _ _ _ _ _ _ _ _ Hsup Ht A) as (l & r & mx & Hr).
    destruct (of_rows_intro x batch (Z.to_nat N) Hw Hsh) as (rows & Ex & Rx). rewrite Hdt in Ex.
    pose proof (jpaths_rows complex_ops complex_ops_ok sgnR t _ _ _ _ _ _ _ _ _ Hr batch rows Rx Hchk) as E. rewrite <- Ex in E.
    destruct (new_jtfs_bank _ _ _ _ (ltac:(cbn; lia) : 0 <= jp_J_fr p) Ht) as (low & pos & neg & Eb & Hx & Hj & _).
    set (Nfr := Z.to_nat (f_N (t_phi_fr t))) in *.
    set (e0 := entry_of complex_ops sgnR Nfr 0 Local [-1] [] (List.length (s_psi1 (t_base t))) ((l + Z.to_nat N + r) / p2 J)
                 (time1 complex_ops (s_phi (t_base t)) (s_psi1 (t_base t)) (l + Z.to_nat N + r) J true) (0%nat, low)).
    assert (He : In e0 (entries complex_ops sgnR t (Z.to_nat N) l r J Local Nfr 0 Local)).
    { unfold entries. apply in_app_iff. left. apply in_map, In_enumerate. rewrite Eb. unfold nonneg. cbn [List.filter]. now rewrite Hx, sgnR_0. }
    exists t. eexists _, _, _. split; [exact Hc|].
    split; [split; [|split; [|split]]; apply A|]. split; [exact Ef|]. split; [exact E|]. split; [apply in_flat_map; exists e0; split; [exact He|]|].
    + unfold out_paths. rewrite Ef. cbn [p with_stride_fr default_jparams jp_format String.eqb Ascii.eqb Bool.eqb]. left. reflexivity.
    + unfold joint_q, restride. change (q_spin (e_q e0)) with (sgnR (f_xi low)). rewrite Hx, sgnR_0. cbn [Z.eqb].
      cbn [set_coef set_order q_spin q_j_fr e0 entry_of e_q slot fst snd]. now rewrite Hx, sgnR_0, Hj.
Qed.
Print Assumptions C40_lowpass_rows_refuted.
