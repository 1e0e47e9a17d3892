(** Property C119: joint time-frequency scattering is invariant to translations shorter than T. *)
From Coq Require Import String Reals ZArith QArith Qreals List Bool Arith Lia Lra.
From Coquelicot Require Import Complex.
From Verif Require Import Base BaseProofs NdArray Backend Core1d Utils1d Utils1dProofs Frontend1d Frontend1dProofs NdProofs StackProofs Rows1d FrontRows Mats
  Factory1d FactoryProofs ComplexOps FilterBank1d FilterBank1dProofs Construct1d Shape1d PropFilters1d PropShapes1d Dft Conv1d Value1d Tabulated1d PropNumerics1d Invariance1d Norm1d Stability1d Energy1d
  Jtfs JtfsFront JtfsProofs JtfsKeys JtfsRows JtfsFmt JtfsFull JtfsConstruct JtfsMeta JtfsTotal PropJtfs JtfsReady JtfsRun SpecJtfsValue JtfsValue JtfsCoef PropJtfsValues
  PropInvariance1d PropJtfsRuns JtfsParts JtfsStability PropJtfsStability JtfsEnergy PropJtfsEnergy Shift1d JtfsShift PropJtfsShift JtfsShort.
Import ListNotations.
Local Open Scope Z_scope.
Local Open Scope res_scope.

(** The gain in energy of the filters of a path, but for the low-pass filter over time that ends it. *)
Definition jtfs_short_gain (t : jtfs (nd C) R) (ls lsf : Z) (af : avg) (key : list nat) : R :=
  match key with
  | [nf] =>
    match nth_error (List.filter (fun f => 0 <=? sgnR (f_xi f)) (t_psis_fr t)) nf with
    | Some psi => (sum_of (fun f1 => norm_at f1 0 ^ 2)%R (s_psi1 (t_base t)) * energy_fr t lsf af psi)%R
    | None => 0%R
    end
  | [n2; nf] =>
    match nth_error (s_psi2 (t_base t)) n2, nth_error (t_psis_fr t) nf with
    | Some f2, Some psi => (energy_order2 t ls Local f2 * energy_fr t lsf af psi)%R
    | _, _ => 0%R
    end
  | _ => 0%R
  end.
Lemma short_gain_eq t ls lsf af key : short_gain t ls (bins t) lsf af key = jtfs_short_gain t ls lsf af key.
Proof.
  unfold short_gain, jtfs_short_gain.
  assert (G : forall f psi, (f * l1 (idft (lev psi 0)) ^ 2 * freq_gain2 (t_phi_fr t) (bins t) af (sgnR (f_xi psi)) (fr_rate lsf af psi) = f * energy_fr t lsf af psi)%R).
  { intros f psi. unfold energy_fr, freq_gain2, norm_at, fr_rate. destruct (_ =? 0)%Z; [ring|]. destruct af; ring. }
  destruct key as [|nf [|nf' [|? ?]]]; try reflexivity.
  - destruct (nth_error _ nf) as [psi|]; [|reflexivity]. now rewrite G.
  - destruct (nth_error _ nf) as [f2|]; [|reflexivity]. destruct (nth_error _ nf') as [psi|]; [|reflexivity]. now rewrite G.
Qed.

(** ** C119 *)
(** [U] is a padded batch, [U'] the same with every signal shifted circularly by [d] strides, that is [d * 2^ls] samples.  The row of
    [B; 1; R; L] coefficients read at [i * R + r] is row [r] of signal [i]. *)
Theorem C119_translation : forall support p out t N T batch x v ls lsf af B (U U' : nd C) d,
  jconstructed support p out t N -> modes t ls Local lsf af -> T_of (p_T (jp_base p)) (p_J (jp_base p)) N = Ok T -> (IZR (2 ^ ls) <= Q2R T)%R ->
  nd_wf x -> nd_shape x = batch ++ [Z.to_nat N] -> (0 < prod batch)%nat -> jpaths np sgnR t x = Ok v ->
  let Np := padded_length (t_base t) N in
  nd_wf U -> nd_dtype U = Real -> nd_shape U = [B; 1; Np]%nat -> nd_wf U' -> nd_dtype U' = Real -> nd_shape U' = [B; 1; Np]%nat ->
  (forall i, (i < B)%nat -> signal Np i U' = rotate (d * 2 ^ ls) (signal Np i U)) ->
  exists p0 S p0' S', paths_of_padded t ls Local lsf af U = Ok (p0, S) /\ paths_of_padded t ls Local lsf af U' = Ok (p0', S') /\
    map jlabels S' = map jlabels S /\
    let small := ((2 / 5 * Rabs (IZR (d * 2 ^ ls)) / Q2R T) ^ 2)%R in
    let energy i := rsum Np (fun u => Cmod (at_ (signal Np i U) u) ^ 2)%R in
    (exists L, nd_shape (p_coef p0) = [B; 1; L]%nat /\ nd_shape (p_coef p0') = [B; 1; L]%nat /\
       forall i, (i < B)%nat -> (rsum L (fun u => Cmod (at_ (signal L i (p_coef p0')) u - at_ (signal L i (p_coef p0)) u)%C ^ 2) <= small * energy i)%R) /\
    forall k q q', nth_error S k = Some q -> nth_error S' k = Some q' ->
      exists R L, nd_shape (q_coef q) = [B; 1; R; L]%nat /\ nd_shape (q_coef q') = [B; 1; R; L]%nat /\
        forall i, (i < B)%nat ->
          (rsum R (fun r => rsum L (fun u => Cmod (at_ (signal L (i * R + r) (q_coef q')) u - at_ (signal L (i * R + r) (q_coef q)) u)%C ^ 2)) <=
           small * energy i * jtfs_short_gain t ls lsf af (if String.eqb (t_format t) "joint" then q_n q else tl (q_n q)))%R.
Proof.
  intros support p out t N T batch x [v0 vS] ls lsf af B U U' d Hc Hm ET HT Hw Hsh Hb HS Np HwU HdU HsU HwU' HdU' HsU' Hrot.
  destruct (run_entries _ _ _ _ _ _ _ _ _ _ _ _ _ Hc Hm Hw Hsh Hb HS) as (l & r & mx & rows0 & Hr & _ & _ & _ & _).
  assert (ENp : Np = (l + Z.to_nat N + r)%nat).
  { unfold Np, padded_length. rewrite (jr_left _ _ _ _ _ _ _ _ _ _ _ Hr), (jr_right _ _ _ _ _ _ _ _ _ _ _ Hr). destruct Hc as (_ & _ & _ & HN & _). lia. }
  pose proof (jr_time _ _ _ _ _ _ _ _ _ _ _ Hr) as Ht. pose proof (jt_ls _ _ _ _ _ _ Ht) as Hls. pose proof (jt_div _ _ _ _ _ _ Ht) as Hdiv.
  pose proof (jt_N _ _ _ _ _ _ Ht) as HN0.
  assert (HB : small_shift (s_phi (t_base t)) ls d (2 / 5 * Rabs (IZR (d * 2 ^ ls)) / Q2R T)%R).
  { destruct Hc as (Hsup & Ht0 & EN & HN & HJ & HJf). apply new_jtfs_inv in Ht0 as (pb & Q_fr & q0 & q1 & F & Epb & EB & _).
    assert (Hcb : constructed support pb out (t_base t) N) by (subst pb; split; [exact Hsup|]; split; [exact EB|]; repeat split; cbn; try assumption; lia).
    assert (ETb : T_of (p_T pb) (p_J pb) N = Ok T) by (subst pb; exact ET).
    intros k n m Hk Hl Hmn. assert (P2 : (IZR (2 ^ k) <= IZR (2 ^ ls))%R) by (apply IZR_le, Z.pow_le_mono_r; lia).
    eapply Rle_trans; [apply (phi_shift support pb out (t_base t) N T k n (Z.of_nat (p2 (ls - k)) * d) m Hcb ETb); try assumption; [lia|lra]|].
    right. do 4 f_equal. rewrite p2_Z by lia. replace ls with (k + (ls - k)) at 2 by lia. rewrite Z.pow_add_r by lia. ring. }
  clearbody Np. subst Np.
  assert (Hfmt : t_format t = "joint"%string \/ t_format t = "time"%string).
  { unfold jpaths in HS. inv_bind HS. unfold jcheck_runtime_args in E. inv_bind E. inv_bind E.
    destruct (String.eqb_spec (t_format t) "time"); [now right|]. destruct (String.eqb_spec (t_format t) "joint"); [now left|discriminate]. }
  clear HS. set (n := Z.to_nat N) in *. set (Nn := (l + n + r)%nat) in *.
  destruct (of_rows_intro U [B; 1]%nat Nn HwU HsU) as (rows & EU & RU). rewrite HdU in EU.
  destruct (of_rows_intro U' [B; 1]%nat Nn HwU' HsU') as (rows' & EU' & RU'). rewrite HdU' in EU'.
  pose proof (core_rows t n l r mx ls Local (bins t) lsf af Hr B rows Hfmt RU) as C1.
  pose proof (core_rows t n l r mx ls Local (bins t) lsf af Hr B rows' Hfmt RU') as C2.
  fold Nn in C1, C2. rewrite <- EU in C1. rewrite <- EU' in C2.
  assert (LB : List.length rows = B) by (destruct RU as [E _]; cbn in E; lia).
  assert (LB' : List.length rows' = B) by (destruct RU' as [E _]; cbn in E; lia).
  assert (Hrow : forall i, (i < B)%nat -> List.length (nth i rows []) = Nn).
  { intros i Hi. destruct RU as [_ F]. rewrite Forall_forall in F. apply F, nth_In. lia. }
  assert (Hrot' : forall i, (i < B)%nat -> nth i rows' [] = rotate (Z.of_nat (p2 ls) * d) (nth i rows [])).
  { intros i Hi. specialize (Hrot i Hi). rewrite EU, EU', !signal_of in Hrot by assumption. rewrite Hrot, p2_Z by exact Hls. f_equal. lia. }
  eexists _, _, _, _. split; [exact C1|]. split; [exact C2|]. clear C1 C2.
  split.
  { rewrite !flat_map_concat_map, !concat_map, !map_map. f_equal. apply map_ext. intros e. unfold padded_paths.
    destruct (String.eqb (t_format t) "joint"); [reflexivity|]. rewrite !map_map. reflexivity. }
  set (bound := (2 / 5 * Rabs (IZR (d * 2 ^ ls)) / Q2R T)%R) in *. cbv zeta.
  assert (En : forall i, (i < B)%nat -> rsum Nn (fun u => Cmod (at_ (signal Nn i U) u) ^ 2)%R = nrg (nth i rows [])).
  { intros i Hi. rewrite EU, signal_of by assumption. unfold nrg. now rewrite Hrow. }
  split.
  { exists (len0 n l r ls Local). cbn [p_coef]. split; [reflexivity|]. split; [reflexivity|].
    assert (R0 : forall rs, rows_ok [B; 1]%nat Nn rs -> rows_ok [B; 1]%nat (len0 n l r ls Local) (map (padded0 t n l r ls Local) rs)).
    { intros rs Hrs. eapply rows_ok_map; [|exact Hrs]. intros y Hy. unfold padded0, len0. apply (r_low_length complex_ops complex_ops_ok). }
    intros i Hi. rewrite !signal_of by (apply R0; assumption). rewrite !(nth_map_in _ _ _ []) by lia. rewrite Hrot', En by exact Hi.
    unfold padded0. fold Nn. set (y := nth i rows []). assert (Hy : List.length y = Nn) by (now apply Hrow).
    assert (Lv : level_ok (s_phi (t_base t)) 0 Nn) by (apply (jt_phi _ _ _ _ _ _ Ht); reflexivity).
    rewrite !(r_low_spec (s_phi (t_base t)) 0 ls Nn) by (rewrite ?rotate_length; assumption).
    apply close2_any. split; [now rewrite !sampled_lowpass_length, rotate_length|].
    apply lowpass_shift; rewrite ?Hy; try assumption; [now rewrite (level_length _ _ _ Lv)|]. intros m Hmn.
    replace (p2 ls) with (p2 (ls - 0)) by (f_equal; lia). now apply HB. }
  (* paths *)
  assert (Hpick : forall k q q', nth_error (flat_map (padded_paths t ls Local lsf af B rows) (entries complex_ops sgnR t n l r ls Local (bins t) lsf af)) k = Some q ->
      nth_error (flat_map (padded_paths t ls Local lsf af B rows') (entries complex_ops sgnR t n l r ls Local (bins t) lsf af)) k = Some q' ->
      exists e j, In e (entries complex_ops sgnR t n l r ls Local (bins t) lsf af) /\
        nth_error (padded_paths t ls Local lsf af B rows e) j = Some q /\ nth_error (padded_paths t ls Local lsf af B rows' e) j = Some q').
  { generalize (entries complex_ops sgnR t n l r ls Local (bins t) lsf af). intros L. induction L as [|e L IH]; intros k q q' H1 H2; [destruct k; discriminate|].
    cbn [flat_map] in H1, H2.
    assert (EL : List.length (padded_paths t ls Local lsf af B rows e) = List.length (padded_paths t ls Local lsf af B rows' e)).
    { unfold padded_paths. destruct (String.eqb _ _); [reflexivity|]. now rewrite !map_length. }
    destruct (Nat.lt_ge_cases k (List.length (padded_paths t ls Local lsf af B rows e))) as [Hk|Hk].
    - rewrite nth_error_app1 in H1 by exact Hk. rewrite nth_error_app1 in H2 by (rewrite <- EL; exact Hk). exists e, k. split; [now left|]. split; assumption.
    - rewrite nth_error_app2 in H1 by exact Hk. rewrite nth_error_app2 in H2 by (rewrite <- EL; exact Hk). rewrite <- EL in H2.
      destruct (IH _ _ _ H1 H2) as (e' & j & He & J1 & J2). exists e', j. split; [now right|]. split; assumption. }
  intros k q q' Hq Hq'. destruct (Hpick _ _ _ Hq Hq') as (e & j & He & J1 & J2). clear Hq Hq' Hpick.
  assert (Hcore : forall i, (i < B)%nat -> (rsum (jrows t lsf af e) (fun r' => rsum (jcols ls Local e) (fun u =>
      Cmod (at_ (nth r' (emat t ls Local lsf af e (nth i rows' [])) []) u - at_ (nth r' (emat t ls Local lsf af e (nth i rows [])) []) u)%C ^ 2))
      <= bound ^ 2 * nrg (nth i rows []) * jtfs_short_gain t ls lsf af (q_n (e_q e)))%R).
  { intros i Hi. rewrite Hrot' by exact Hi. rewrite <- short_gain_eq.
    exact (emat_short t n l r mx ls (bins t) lsf af Hr bound d e (nth i rows []) HB He (Hrow i Hi)). }
  destruct (restride_same lsf af (e_q e)) as (_ & Rn & _).
  pose proof (fun y => emat_ok t n l r mx ls Local (bins t) lsf af Hr e y He) as Hok.
  unfold padded_paths in J1, J2. destruct (String.eqb_spec (t_format t) "joint") as [Ej|Ej].
  - destruct j as [|j]; [|destruct j; discriminate]. cbn [nth_error] in J1, J2. injection J1 as <-. injection J2 as <-.
    cbn [set_coef q_n q_coef]. change (q_n (joint_q lsf af e)) with (q_n (restride lsf af (e_q e))). rewrite Rn.
    exists (jrows t lsf af e), (jcols ls Local e). split; [reflexivity|]. split; [reflexivity|].
    intros i Hi. rewrite En by exact Hi. eapply Rle_trans; [|exact (Hcore i Hi)]. right. apply rsum_ext. intros r' Hr'. unfold of_mats.
    assert (W : forall rs, List.length rs = B -> rows_ok [B; 1; jrows t lsf af e]%nat (jcols ls Local e) (concat (map (emat t ls Local lsf af e) rs))).
    { intros rs Hrs. apply mats_rows. split; [now rewrite map_length|]. apply Forall_map, Forall_forall. intros y _. apply Hok. }
    assert (Wc : forall rs, List.length rs = B -> nth (i * jrows t lsf af e + r') (concat (map (emat t ls Local lsf af e) rs)) [] = nth r' (emat t ls Local lsf af e (nth i rs [])) []).
    { intros rs Hrs. rewrite (nth_concat (jrows t lsf af e)); [|apply Forall_map, Forall_forall; intros y _; apply Hok|now rewrite map_length, Hrs|exact Hr'].
      rewrite (nth_map_in _ _ _ []) by lia. reflexivity. }
    rewrite !signal_of by (apply W; assumption). rewrite !Wc by assumption. reflexivity.
  - apply nth_error_map_seq in J1 as [I1 ->]. apply nth_error_map_seq in J2 as [_ ->]. rename j into i1.
    assert (Hi1 : (i1 < jrows t lsf af e)%nat).
    { pose proof (entries_labels complex_ops complex_ops_ok sgnR t _ _ _ _ _ _ _ _ _ Hr e He) as HL.
      pose proof (entries_fmt complex_ops complex_ops_ok sgnR t _ _ _ _ _ _ _ _ _ Hr e He) as HF. pose proof (fo_s _ _ _ _ _ _ _ _ _ _ HF). pose proof (fo_max _ _ _ _ _ _ _ _ _ _ HF).
      unfold jrows, ulen. destruct (joint_array _ _); [lia|]. apply Nat.min_glb_lt; [|lia]. unfold nlabels in I1. set (s := estride lsf af (e_q e)) in *.
      pose proof (Z.div_pos (q_n1_max (e_q e)) s). assert ((q_n1_max (e_q e) + s - 1) / s <= 1 + q_n1_max (e_q e) / s)%Z; [|lia].
      replace (1 + q_n1_max (e_q e) / s)%Z with ((q_n1_max (e_q e) + 1 * s) / s)%Z by (rewrite Z.div_add by lia; lia). apply Z.div_le_mono; lia. }
    cbn [set_coef q_n q_coef]. assert (Eq : tl (q_n (time_q lsf af e i1)) = q_n (e_q e)) by (unfold time_q, label; cbn [set_n q_n tl]; exact Rn). rewrite Eq.
    exists 1%nat, (jcols ls Local e). split; [reflexivity|]. split; [reflexivity|].
    intros i Hi. rewrite En by exact Hi. eapply Rle_trans; [|exact (Hcore i Hi)].
    assert (W : forall rs, List.length rs = B -> rows_ok [B; 1; 1]%nat (jcols ls Local e) (map (fun row => nth i1 (emat t ls Local lsf af e row) []) rs)).
    { intros rs Hrs. split; [rewrite map_length, Hrs; cbn; lia|]. apply Forall_map, Forall_forall. intros y _. destruct (Hok y) as [M1 M2].
      rewrite Forall_forall in M2. apply M2, nth_In. rewrite M1. exact Hi1. }
    cbn [rsum]. rewrite Rplus_0_l. replace (i * 1 + 0)%nat with i by lia. rewrite !signal_of by (apply W; assumption). rewrite !(nth_map_in _ _ _ []) by lia.
    set (g := fun r' => rsum (jcols ls Local e) (fun u => Cmod (at_ (nth r' (emat t ls Local lsf af e (nth i rows' [])) []) u - at_ (nth r' (emat t ls Local lsf af e (nth i rows [])) []) u)%C ^ 2)%R).
    change (g i1 <= rsum (jrows t lsf af e) g)%R.
    assert (Hg : forall r', (0 <= g r')%R) by (intros; apply rsum_pos; intros; apply pow2_ge_0).
    apply Rle_trans with (rsum (S i1) g); [cbn [rsum]; assert (0 <= rsum i1 g)%R by (apply rsum_pos; intros; apply Hg); lra|].
    apply rsum_more; [exact Hg|lia].
Qed.
Print Assumptions C119_translation.

(** J = 4, N = 100, Q = 1, T = 16, F = 0, a stride of 4 and both formats: the object accepts a batch of ramps, and a padded batch of 3
    signals is shifted by one stride, a quarter of T; the factor [small] is then 1/100. *)
Definition short_params (format : string) : jparams :=
  mk_jparams {| p_J := 4; p_shape := ShInt 100; p_Q := QInt 1; p_T := TNone; p_stride := SInt 4; p_max_order := 2; p_oversampling := ONone |}
    1 (QInt 1) (TNum 0) SNone format.
Lemma short_base : exists s, Scattering1D (fun _ _ => 30) (jp_base (short_params "joint")) "list" = Ok s /\
  s_average s = Ok Local /\ s_log2_stride s = Ok 2 /\ padded_length s 100 = 256%nat /\ map f_j (s_psi2 s) = [0; 0; 0; 1; 2].
Proof.
  set (p := jp_base (short_params "joint")).
  assert (H30 : forall (n : Z) (t : Q), 0 <= 30) by (intros; lia).
  assert (EN : N_input_of (p_shape p) = Ok 100) by reflexivity.
  assert (HJ : 0 <= p_J p) by (cbn; lia). assert (Hmo : 1 <= p_max_order p <= 2) by (cbn; lia).
  assert (EQ : Q_of (p_Q p) = Ok [QI 1; QI 1]) by reflexivity.
  assert (ET : T_of TNone 4 100 = Ok (Qpower 2 4)) by reflexivity.
  assert (El2 : log2_T_of TNone 4 100 = Ok 4) by reflexivity.
  destruct (build_total (fun _ _ => 30) p 100 (SInt 4) (Qpower 2 4)) as [b Hb]; try assumption; try reflexivity; try lia.
  destruct (build_inv _ _ _ Hb) as (st & T' & l' & r & EN' & EO & ET' & _ & Eb).
  assert (EbN : b_N b = 100) by congruence. rewrite EbN in *.
  cbn in EO. injection EO as <-.
  assert (ENp : b_Npad b = 256) by (rewrite Eb; reflexivity).
  destruct (new_total (fun _ _ => 30) p "list" b 1 1 4) as [s Hs]; try assumption; try lia.
  { rewrite ENp. cbn. lia. }
  exists s. split; [exact Hs|].
  pose proof Hs as Hs'. apply new_inv in Hs'. destruct Hs' as (b' & Qs & T'' & l & phi & psi1s & psi2s & Hb' & _ & _ & _ & _ & _ & Es).
  assert (b' = b) by congruence. subst b'.
  split; [rewrite Es, EbN; reflexivity|]. split; [rewrite Es, Eb; reflexivity|]. split.
  { destruct (build_plan (fun _ _ => 30) p b H30 Hb) as (_ & _ & _ & _ & B4 & _); [lia|].
    unfold padded_length. rewrite Es. cbn [s_pad_left s_pad_right]. rewrite EbN in B4. rewrite B4, ENp. reflexivity. }
  destruct (new_banks _ _ _ _ Hs _ _ EQ) as (_ & P2 & _ & J2). change (p_J p) with 4 in P2.
  pose proof (anden_unique _ _ _ _ _ _ (anden_list_ok 4 1 ltac:(lia) ltac:(lia)) (anden_Q1 4 ltac:(lia))) as E.
  change (seq 0 (S (Z.to_nat 4))) with [0; 1; 2; 3; 4]%nat in E.
  rewrite E in P2. transitivity (map (fun a => scale (fst a) (snd a)) (map params_of (s_psi2 s))).
  - clear - J2. induction J2 as [|f fs Ef _ IH]; [reflexivity|]. cbn [map params_of fst snd]. now rewrite Ef, IH.
  - rewrite P2, map_map. cbn [map fst snd]. now rewrite !scale_Q1.
Qed.
Example C119_instance : forall format, In format ["joint"; "time"]%string ->
  let x := mk_nd Real [3; 100]%nat (map (fun i => RtoC (INR i)) (seq 0 300)) in
  let ramps := map (fun i => map (fun u => RtoC (INR (i + u))) (seq 0 256)) [0; 1; 2]%nat in
  let U := of_rows Real [3; 1]%nat 256 ramps in let U' := of_rows Real [3; 1]%nat 256 (map (rotate (1 * 2 ^ 2)) ramps) in
  exists t v, jconstructed (fun _ _ => 30) (short_params format) "list" t 100 /\ modes t 2 Local 1 NoAvg /\
    T_of (p_T (jp_base (short_params format))) 4 100 = Ok (Qpower 2 4) /\ (IZR (2 ^ 2) <= Q2R (Qpower 2 4))%R /\
    padded_length (t_base t) 100 = 256%nat /\ nd_wf x /\ jpaths np sgnR t x = Ok v /\ snd v <> [] /\
    nd_wf U /\ nd_dtype U = Real /\ nd_shape U = [3; 1; 256]%nat /\ nd_wf U' /\ nd_dtype U' = Real /\ nd_shape U' = [3; 1; 256]%nat /\
    forall i, (i < 3)%nat -> signal 256 i U' = rotate (1 * 2 ^ 2) (signal 256 i U).
Proof.
  intros format Hf x ramps U U'. set (p := short_params format).
  assert (Hsup : forall (n : Z) (u : Q), 0 <= 30) by (intros; lia).
  assert (Hw : nd_wf x) by (unfold nd_wf, x; cbn [nd_data nd_shape]; rewrite map_length, seq_length; reflexivity).
  assert (Hbase : exists base, Scattering1D (fun _ _ => 30) (jp_base p) "list" = Ok base /\ s_average base = Ok Local /\ s_log2_stride base = Ok 2 /\
    padded_length base 100 = 256%nat /\ map f_j (s_psi2 base) = [0; 0; 0; 1; 2]).
  { destruct short_base as (b0 & Hs & G). exists b0. split; [exact Hs|exact G]. }
  destruct Hbase as (base & Hbase & Ea & Els & ENp & F2).
  destruct (new_jtfs_total (fun _ _ => 30) p "list"%string base 1 (QI 1) 1 (Qpower 2 1)) as (t & H & Et); try reflexivity; try exact Hbase; [cbn; lia|].
  assert (Hc : jconstructed (fun _ _ => 30) p "list" t 100) by (repeat split; try assumption; cbn; lia).
  assert (Hm : modes t 2 Local 1 NoAvg /\ t_format t = format /\ s_out_type (t_base t) = "list"%string).
  { pose proof H as H0. apply new_jtfs_inv in H0. destruct H0 as (pb & Q_fr & q0 & q1 & F & Epb & EB & _ & EQ' & _ & _ & Elsf & Eaf & Ef & _).
    assert (q0 = 1) by (subst pb; cbn in EQ'; congruence). subst q0.
    split; [|split; [exact Ef|]].
    - unfold modes. rewrite Et, Elsf, Eaf. repeat split; try assumption; reflexivity.
    - apply new_inv in EB. destruct EB as (b & Qs & T0 & l2T & phi & psi1s & psi2s & Hb & _ & _ & _ & _ & _ & Es). rewrite Es. reflexivity. }
  destruct Hm as (Hm & Ef & Eo). pose proof Hm as (M1 & M2 & M3 & M4).
  assert (A : aligned p t 100 2 Local 1 NoAvg).
  { constructor; try assumption; try reflexivity; try discriminate; try (cbn; lia).
    - exists 1, 1. split; [reflexivity|lia].
    - intros _. split.
      + intros f2 H2. rewrite Et in H2. apply (in_map f_j) in H2. rewrite F2 in H2. cbn in H2. lia.
      + exists 4. split; [reflexivity|lia].
    - destruct (C38_padding_partial (fun _ _ => 30) p "list"%string t 1 (QI 1) (Qpower 2 1) ltac:(cbn; lia) ltac:(cbn; lia) H eq_refl eq_refl) as (_ & _ & G & _).
      unfold Qlt, Qminus, Qplus, Qopp, inject_Z in G. cbn in G. lia. }
  destruct (new_jready _ _ _ _ _ _ _ _ _ Hsup H A) as (l & r & mx & Hr).
  destruct (of_rows_intro x [3%nat] 100 Hw eq_refl) as (rows & Ex & Rx). change (nd_dtype x) with Real in Ex.
  assert (Hchk : jcheck_runtime_args t = Ok tt).
  { unfold jcheck_runtime_args, check_runtime_args. rewrite Eo, Ef, M2, M4. destruct Hf as [<-|[<-|[]]]; reflexivity. }
  pose proof (jpaths_rows complex_ops complex_ops_ok sgnR t _ _ _ _ _ _ _ _ _ Hr [3%nat] rows Rx Hchk) as E. change (Z.to_nat 100) with 100%nat in E. rewrite <- Ex in E.
  destruct (new_jtfs_bank _ _ _ _ (ltac:(cbn; lia) : 0 <= jp_J_fr p) H) as (low & pos & neg & Eb & Hx & Hj & _).
  match type of E with _ = Ok (?a, ?b) => set (p0 := a) in E; set (S := b) in E end.
  assert (HS : S <> []).
  { set (e0 := entry_of complex_ops sgnR (Z.to_nat (f_N (t_phi_fr t))) 1 NoAvg [-1] [] (List.length (s_psi1 (t_base t))) ((l + 100 + r) / p2 2)
                 (time1 complex_ops (s_phi (t_base t)) (s_psi1 (t_base t)) (l + 100 + r) 2 (is_local_avg Local)) (0%nat, low)).
    assert (He : In e0 (entries complex_ops sgnR t 100 l r 2 Local (Z.to_nat (f_N (t_phi_fr t))) 1 NoAvg)).
    { unfold entries. apply in_app_iff. left. apply in_map, In_enumerate. rewrite Eb. unfold nonneg. cbn [List.filter]. now rewrite Hx, sgnR_0. }
    pose proof (entries_labels complex_ops complex_ops_ok sgnR t _ _ _ _ _ _ _ _ _ Hr e0 He) as HL.
    assert (Hq : exists q, In q S); [|destruct Hq as [q Hq]; intros E0; rewrite E0 in Hq; destruct Hq].
    unfold S. destruct (out_paths complex_ops t 100 l r 2 Local 1 NoAvg [3%nat] rows e0) as [|q q1] eqn:Eq.
    - exfalso. unfold out_paths in Eq. destruct (String.eqb _ _); [discriminate|]. apply map_eq_nil in Eq. destruct (nlabels 1 NoAvg (e_q e0)); [lia|discriminate].
    - exists q. apply in_flat_map. exists e0. split; [exact He|]. rewrite Eq. now left. }
  assert (RU : rows_ok [3; 1]%nat 256 ramps) by (split; [reflexivity|]; repeat constructor).
  assert (RU' : rows_ok [3; 1]%nat 256 (map (rotate (1 * 2 ^ 2)) ramps)) by (split; [reflexivity|]; repeat constructor; apply rotate_length).
  exists t, (p0, S). split; [exact Hc|]. split; [exact Hm|]. split; [reflexivity|]. split; [unfold Q2R; cbn; lra|]. split; [rewrite Et; exact ENp|]. split; [exact Hw|]. split; [exact E|]. split; [exact HS|].
  split; [now apply of_rows_wf|]. split; [reflexivity|]. split; [reflexivity|]. split; [now apply of_rows_wf|]. split; [reflexivity|]. split; [reflexivity|].
  intros i Hi. unfold U, U'. rewrite !signal_of by assumption. apply nth_map_in. exact Hi.
Qed.
