(** Property C64: the values of the coefficients of joint time-frequency scattering. *)
From Coq Require Import String Reals ZArith QArith Qpower Qminmax List Bool Arith Lia Lra.
From Coquelicot Require Import Complex.
From Verif Require Import Base BaseProofs NdArray Backend Core1d Utils1d Utils1dProofs Frontend1d Frontend1dProofs NdProofs Rows1d FrontRows Mats
  Factory1d FactoryProofs ComplexOps FilterBank1d FilterBank1dProofs Construct1d Shape1d PropFilters1d PropShapes1d Dft Conv1d Value1d Tabulated1d PropNumerics1d
  Jtfs JtfsFront JtfsProofs JtfsKeys JtfsRows JtfsFmt JtfsFull JtfsConstruct JtfsMeta JtfsTotal PropJtfs JtfsReady JtfsRun SpecJtfsValue JtfsValue JtfsCoef.
Import ListNotations.
Local Open Scope Z_scope.
Local Open Scope res_scope.

(** ** Vocabulary *)
Definition jconstructed (support : Z -> Q -> Z) (p : jparams) (out : string) (t : jtfs (nd C) R) (N : Z) : Prop :=
  (forall n t, 0 <= support n t) /\ TimeFrequencyScattering support p out = Ok t /\ N_input_of (p_shape (jp_base p)) = Ok N /\
  1 <= N /\ 0 <= p_J (jp_base p) /\ 0 <= jp_J_fr p.
(** The strides and averaging modes of the object. *)
Definition modes (t : jtfs (nd C) R) (ls : Z) (a : avg) (lsf : Z) (af : avg) : Prop :=
  s_log2_stride (t_base t) = Ok ls /\ s_average (t_base t) = Ok a /\ t_log2_stride_fr t = Ok lsf /\ t_average_fr t = Ok af.
(** Number of padded frequency bins. *)
Definition bins (t : jtfs (nd C) R) : nat := Z.to_nat (f_N (t_phi_fr t)).
(** First time sample that is kept at resolution [res]. *)
Definition jstart (t : jtfs (nd C) R) (a : avg) (res : Z) : nat := match a with Global => 0%nat | _ => Z.to_nat (first_kept (t_base t) res) end.

Lemma run_entries support p out t N batch x p0 S ls a lsf af :
  jconstructed support p out t N -> modes t ls a lsf af -> nd_wf x -> nd_shape x = batch ++ [Z.to_nat N] -> (0 < prod batch)%nat ->
  jpaths np sgnR t x = Ok (p0, S) ->
  exists l r mx rows, jready sgnR t (Z.to_nat N) l r mx ls a (bins t) lsf af /\
    x = of_rows Real batch (Z.to_nat N) rows /\ rows_ok batch (Z.to_nat N) rows /\
    p0 = mk_path (of_rows Real batch (zeroth_len (Z.to_nat N) l r ls a) (map (zeroth complex_ops t (Z.to_nat N) l r ls a) rows)) [] [] /\
    S = flat_map (out_paths complex_ops t (Z.to_nat N) l r ls a lsf af batch rows) (entries complex_ops sgnR t (Z.to_nat N) l r ls a (bins t) lsf af).
Proof.
  intros (Hsup & H & EN & HN & HJ & HJf) (M1 & M2 & M3 & M4) Hw Hsh Hb HS.
  destruct (run_jready _ _ _ _ _ _ _ _ _ Hsup H EN HN HJ HJf Hw Hsh Hb HS) as (Hd & Hchk & l & r & mx & ls' & a' & Nfr & lsf' & af' & Hr).
  pose proof (jr_stride _ _ _ _ _ _ _ _ _ _ _ Hr). pose proof (jr_avg _ _ _ _ _ _ _ _ _ _ _ Hr).
  pose proof (jr_stride_fr _ _ _ _ _ _ _ _ _ _ _ Hr). pose proof (jr_avg_fr _ _ _ _ _ _ _ _ _ _ _ Hr).
  pose proof (jf_N _ _ _ _ _ _ (jr_fr _ _ _ _ _ _ _ _ _ _ _ Hr)) as HNf.
  assert (ls' = ls) by congruence. assert (a' = a) by congruence. assert (lsf' = lsf) by congruence. assert (af' = af) by congruence. subst ls' a' lsf' af'.
  assert (Nfr = bins t) by (unfold bins; rewrite HNf; lia). subst Nfr.
  destruct (of_rows_intro x batch (Z.to_nat N) Hw Hsh) as (rows & Ex & Rx). rewrite Hd in Ex.
  exists l, r, mx, rows. split; [exact Hr|]. split; [exact Ex|]. split; [exact Rx|].
  pose proof (jpaths_rows complex_ops complex_ops_ok sgnR t _ _ _ _ _ _ _ _ _ Hr batch rows Rx Hchk) as E. rewrite <- Ex, HS in E. injection E as -> ->. split; reflexivity.
Qed.

Lemma nth_concat {A} (m i r : nat) (ll : list (list A)) d : Forall (fun l => List.length l = m) ll -> (i < List.length ll)%nat -> (r < m)%nat ->
  nth (i * m + r) (concat ll) d = nth r (nth i ll []) d.
Proof.
  intros H. revert i. induction H as [|x ll Hx H IH]; intros i Hi Hr; [cbn in Hi; lia|]. destruct i as [|i]; cbn [concat nth].
  - rewrite app_nth1 by lia. reflexivity.
  - rewrite app_nth2 by lia. replace (Datatypes.S i * m + r - List.length x)%nat with (i * m + r)%nat by lia. apply IH; [cbn in Hi; lia|exact Hr].
Qed.

Lemma tcut_at n l ls a q c (row : list C) tau : List.length row = c -> (tau < tcut_len n l ls a q c)%nat ->
  let start := match a with Global => 0%nat | _ => jlo l (tres ls a q) end in
  at_ (tcut n l ls a q row) tau = at_ row (start + tau) /\ (start + tau < c)%nat.
Proof.
  intros Hc Ht. unfold tcut, tcut_len in *. destruct a; cbv zeta.
  - unfold at_. rewrite nth_slice by lia. split; [reflexivity|lia].
  - split; [reflexivity|exact Ht].
  - unfold at_. rewrite nth_slice by lia. split; [reflexivity|lia].
Qed.

Lemma jstart_lo t l a res : s_pad_left (t_base t) = Z.of_nat l -> match a with Global => 0%nat | _ => jlo l res end = jstart t a res.
Proof. intros H. unfold jstart, jlo, first_kept. rewrite H. reflexivity. Qed.

Lemma averaged_length {P} (phi : Core1d.filter (nd C) P) ls a Nfr q rows psi k c r :
  List.length (averaged_row phi ls a Nfr (j2_of q) rows psi k c r) = tlen ls a q c.
Proof.
  unfold averaged_row, time_average, tlen, j2_of. set (row := map _ (seq 0 c)).
  assert (El : List.length row = c) by (unfold row; now rewrite map_length, seq_length).
  destruct a; [|reflexivity|exact El]. destruct (second q); [rewrite sampled_lowpass_length, El; reflexivity|exact El].
Qed.

(** Rows and strides of an entry. *)
Lemma entry_rows t n l r mx ls a Nfr lsf af : jready sgnR t n l r mx ls a Nfr lsf af ->
  forall e psi, In e (entries complex_ops sgnR t n l r ls a Nfr lsf af) -> q_j_fr (e_q e) = f_j psi -> q_spin (e_q e) = sgnR (f_xi psi) ->
  e_m e = (Nfr / p2 (fr_rate lsf af psi))%nat -> In psi (t_psis_fr t) ->
  (jrows t lsf af e <= freq_rows Nfr lsf af (q_spin (e_q e)) (fr_rate lsf af psi))%nat /\
  q_n1_stride (joint_q lsf af e) = PInt (estride lsf af (e_q e)) /\ 0 < estride lsf af (e_q e) /\
  cdiv (q_n1_max (e_q e)) (estride lsf af (e_q e)) <= Z.of_nat (jrows t lsf af e) /\
  (s_out_type (t_base t) <> "array"%string -> Z.of_nat (jrows t lsf af e) <= 1 + q_n1_max (e_q e) / estride lsf af (e_q e)).
Proof.
  intros Hr e psi He Hjf Hsp Hem Hpsi.
  pose proof (entries_fmt complex_ops complex_ops_ok sgnR t _ _ _ _ _ _ _ _ _ Hr e He) as HF.
  pose proof (fo_s _ _ _ _ _ _ _ _ _ _ HF) as Hs. pose proof (fo_max _ _ _ _ _ _ _ _ _ _ HF) as Hm.
  pose proof (entries_labels complex_ops complex_ops_ok sgnR t _ _ _ _ _ _ _ _ _ Hr e He) as HL.
  set (s := estride lsf af (e_q e)) in *. set (m := q_n1_max (e_q e)) in *.
  assert (Hfl : flen (t_phi_fr t) lsf af (e_q e) (e_m e) = freq_rows Nfr lsf af (q_spin (e_q e)) (fr_rate lsf af psi)).
  { unfold flen, freq_rows. rewrite Hem. destruct (Z.eqb_spec (q_spin (e_q e)) 0) as [|Hn0]; [reflexivity|]. destruct af; try reflexivity.
    unfold kphi. rewrite Hjf. rewrite Hsp in Hn0. destruct (jr_aligned _ _ _ _ _ _ _ _ _ _ _ Hr eq_refl psi Hpsi Hn0) as (_ & A & _). rewrite A. reflexivity. }
  assert (Hcd : cdiv m s = (m + s - 1) / s).
  { unfold cdiv. pose proof (Z.div_mod (m + s - 1) s ltac:(lia)). pose proof (Z.mod_pos_bound (m + s - 1) s Hs).
    enough (- m / s = - ((m + s - 1) / s)) by lia. symmetry. apply (Z.div_unique _ _ _ (s - 1 - (m + s - 1) mod s)); lia. }
  assert (Hle : cdiv m s <= 1 + m / s).
  { rewrite Hcd. replace (1 + m / s)%Z with ((m + 1 * s) / s)%Z by (rewrite Z.div_add by lia; lia). apply Z.div_le_mono; lia. }
  assert (0 <= m / s) by (apply Z.div_pos; lia).
  unfold nlabels in HL. fold s m in HL. rewrite <- Hcd in HL.
  unfold jrows, ulen. fold s m. rewrite Hfl in *. split; [destruct (joint_array _ _); lia|].
  split; [exact (fo_stride _ _ _ _ _ _ _ _ _ _ HF)|]. split; [exact Hs|].
  split; [destruct (joint_array _ _); lia|].
  intros Ho. unfold joint_array. rewrite (proj2 (String.eqb_neq _ _) Ho). cbn [andb]. lia.
Qed.

(** ** C64 *)
(** Format 'joint': sample [tau] of row [r] of the coefficient of signal [i].  The expected value [joint_value] is written
    with circular convolutions in SpecJtfsValue.v; [source] (JtfsCoef.v) says which filters the key stands for. *)
Theorem C64_joint_coefficients : forall support p out t N batch x p0 S ls a lsf af q,
  jconstructed support p out t N -> modes t ls a lsf af -> nd_wf x -> nd_shape x = batch ++ [Z.to_nat N] -> (0 < prod batch)%nat ->
  t_format t = "joint"%string -> jpaths np sgnR t x = Ok (p0, S) -> In q S ->
  exists psi j2 rows c m R L, source t (padded_length (t_base t) N) ls a (q_n q) psi j2 rows c m /\
    q_spin q = sgnR (f_xi psi) /\ q_j_fr q = f_j psi /\ q_n1_max q = Z.of_nat m /\ (0 < m)%nat /\
    nd_shape (q_coef q) = batch ++ [R; L]%nat /\ (R <= freq_rows (bins t) lsf af (q_spin q) (fr_rate lsf af psi))%nat /\
    (exists s, s = fr_stride lsf af (q_spin q) (q_j_fr q) (Z.of_nat m) /\ q_n1_stride q = PInt s /\ 0 < s /\
       cdiv (Z.of_nat m) s <= Z.of_nat R /\ (s_out_type (t_base t) <> "array"%string -> Z.of_nat R <= 1 + Z.of_nat m / s)) /\
    let start := jstart t a (match a, j2 with NoAvg, Some j => j | _, _ => ls end) in
    forall i r tau, (i < prod batch)%nat -> (r < R)%nat -> (tau < L)%nat ->
      at_ (signal L (i * R + r) (q_coef q)) tau =
      joint_value (s_phi (t_base t)) ls a (t_phi_fr t) (bins t) lsf af j2 (rows (padded (t_base t) (signal (Z.to_nat N) i x)))
        psi (q_spin q) (fr_rate lsf af psi) c r (start + tau) /\
      (start + tau < List.length (averaged_row (s_phi (t_base t)) ls a (bins t) j2 (rows (padded (t_base t) (signal (Z.to_nat N) i x))) psi (fr_rate lsf af psi) c r))%nat.
Proof.
  intros support p out t N batch x p0 S ls a lsf af q Hc Hm Hw Hsh Hb Hfmt HS Hq. pose proof Hc as (_ & _ & _ & HN & _).
  destruct (run_entries _ _ _ _ _ _ _ _ _ _ _ _ _ Hc Hm Hw Hsh Hb HS) as (l & r & mx & rows & Hr & Ex & Rx & _ & ->).
  apply in_flat_map in Hq as (e & He & Hq). unfold out_paths in Hq. rewrite Hfmt in Hq. cbn [String.eqb Ascii.eqb Bool.eqb] in Hq.
  destruct Hq as [<-|[]].
  destruct (entry_spec t (Z.to_nat N) l r mx ls a (bins t) lsf af Hr e He) as (psi & j2 & G & c & m & Hsrc & Hcn & Hm0 & Hpsi & Hsp & Hjf & Hn1 & Hj2 & Hem & _ & _ & _ & Hval).
  assert (ENp : padded_length (t_base t) N = (l + Z.to_nat N + r)%nat).
  { unfold padded_length. rewrite (jr_left _ _ _ _ _ _ _ _ _ _ _ Hr), (jr_right _ _ _ _ _ _ _ _ _ _ _ Hr). lia. }
  destruct (restride_same lsf af (e_q e)) as (R1 & R2 & R3 & R4 & R5).
  exists psi, j2, G, c, m, (jrows t lsf af e), (tcut_len (Z.to_nat N) l ls a (joint_q lsf af e) (jcols ls a e)).
  assert (Ejfr : q_j_fr (joint_q lsf af e) = q_j_fr (e_q e)).
  { unfold joint_q, restride. destruct af; [destruct (_ =? _)|destruct (_ =? _)|]; reflexivity. }
  assert (Jn : q_n (joint_q lsf af e) = q_n (e_q e)) by exact R2. assert (Jm : q_n1_max (joint_q lsf af e) = q_n1_max (e_q e)) by exact R3.
  assert (Js : q_spin (joint_q lsf af e) = q_spin (e_q e)) by exact R4.
  cbn [set_coef q_coef q_n q_spin q_j_fr q_n1_max]. rewrite ENp, Jn, Jm, Js.
  split; [exact Hsrc|]. split; [exact Hsp|]. split; [rewrite Ejfr; exact Hjf|]. split; [exact Hn1|]. split; [exact Hm0|].
  split; [cbn [of_rows nd_shape]; now rewrite <- app_assoc|].
  destruct (entry_rows t _ _ _ _ _ _ _ _ _ Hr e psi He Hjf Hsp Hem Hpsi) as (W1 & W2 & W3 & W4 & W5).
  split; [exact W1|]. split. { exists (estride lsf af (e_q e)). rewrite Ejfr, <- Hn1. split; [apply estride_fr|]. auto. }
  cbv zeta. intros i r' tau Hi Hr' Ht.
  set (q := joint_q lsf af e) in *. set (L := tcut_len (Z.to_nat N) l ls a q (jcols ls a e)) in *.
  pose proof Rx as [Rx1 Rx2].
  assert (Hok : forall y, mat_ok (jrows t lsf af e) (jcols ls a e) (jmat complex_ops t (Z.to_nat N) l r ls a lsf af e y)).
  { intros y. exact (jmat_ok complex_ops complex_ops_ok sgnR t _ _ _ _ _ _ _ _ _ Hr e y He). }
  assert (Hrows : rows_ok (batch ++ [jrows t lsf af e]) L (concat (map (fun row => map (tcut (Z.to_nat N) l ls a q) (jmat complex_ops t (Z.to_nat N) l r ls a lsf af e row)) rows))).
  { split.
    - rewrite prod_snoc, (concat_len (jrows t lsf af e)), map_length, Rx1; [reflexivity|].
      apply Forall_map, Forall_forall. intros y _. rewrite map_length. apply Hok.
    - apply Forall_concat, Forall_map, Forall_forall. intros y _. apply Forall_map. destruct (Hok y) as [_ Hrow].
      eapply Forall_impl; [|exact Hrow]. intros z Hz. unfold L, tcut, tcut_len. destruct a; rewrite ?slice_length, Hz; reflexivity. }
  rewrite signal_of by exact Hrows.
  rewrite (nth_concat (jrows t lsf af e)); [|apply Forall_map, Forall_forall; intros y _; rewrite map_length; apply Hok|now rewrite map_length, Rx1|exact Hr'].
  rewrite (nth_map_in _ _ _ []) by (rewrite Rx1; exact Hi).
  destruct (Hok (nth i rows [])) as [O1 O2].
  rewrite (nth_map_in _ _ _ []) by (rewrite O1; exact Hr').
  assert (Hlen : List.length (nth r' (jmat complex_ops t (Z.to_nat N) l r ls a lsf af e (nth i rows [])) []) = jcols ls a e).
  { rewrite Forall_forall in O2. apply O2, nth_In. rewrite O1. exact Hr'. }
  destruct (tcut_at (Z.to_nat N) l ls a q _ _ tau Hlen Ht) as [T1 T2]. rewrite T1.
  rewrite (jstart_lo t l a _ (jr_left _ _ _ _ _ _ _ _ _ _ _ Hr)) in *.
  assert (Eres : jstart t a (tres ls a q) = jstart t a (match a, j2 with NoAvg, Some j => j | _, _ => ls end)).
  { destruct a; try reflexivity. f_equal. unfold tres. cbn [is_none_avg andb]. rewrite Hj2. unfold j2_of, second, jlast, q, joint_q. cbn [set_order q_n q_j]. rewrite R1, R2.
    destruct (Nat.ltb_spec 1 (List.length (q_n (e_q e)))) as [Hlt|]; [|reflexivity].
    destruct (entries_ok complex_ops complex_ops_ok sgnR t _ _ _ _ _ _ _ _ _ Hr e He) as (wj & wn & m' & c' & G' & nfr & psi' & -> & _ & _ & _ & _ & Hcase).
    cbn [entry_of e_q slot q_j q_n fst snd] in *. destruct Hcase as [(_ & -> & _)|(n2 & f2 & H2 & _ & -> & _ & _ & Hj)]; [cbn in Hlt; lia|].
    cbn [List.last]. lia. }
  rewrite Eres in *. rewrite Forall_forall in Rx2.
  assert (Hlx : List.length (nth i rows []) = Z.to_nat N) by (apply Rx2, nth_In; rewrite Rx1; exact Hi).
  rewrite Hval by assumption.
  assert (Esig : signal (Z.to_nat N) i x = nth i rows []) by (rewrite Ex; now apply signal_of with (pre := batch)).
  assert (Epad : padded (t_base t) (signal (Z.to_nat N) i x) = pad_reflect_row complex_ops l r (Z.to_nat N) (nth i rows [])).
  { unfold padded. rewrite Esig, Hlx, (jr_left _ _ _ _ _ _ _ _ _ _ _ Hr), (jr_right _ _ _ _ _ _ _ _ _ _ _ Hr), !Nat2Z.id. reflexivity. }
  rewrite Epad. split; [reflexivity|].
  rewrite Hj2 in T2 |- *. rewrite Hcn, averaged_length. exact T2.
Qed.
Print Assumptions C64_joint_coefficients.

(** Format 'time': the path labelled [n1 :: ns] holds row [n1 / stride] of the path of key [ns] of format 'joint'. *)
Theorem C64_time_coefficients : forall support p out t N batch x p0 S ls a lsf af q,
  jconstructed support p out t N -> modes t ls a lsf af -> nd_wf x -> nd_shape x = batch ++ [Z.to_nat N] -> (0 < prod batch)%nat ->
  t_format t = "time"%string -> jpaths np sgnR t x = Ok (p0, S) -> In q S ->
  exists n1 ns psi j2 rows c m r L, q_n q = n1 :: ns /\ source t (padded_length (t_base t) N) ls a ns psi j2 rows c m /\
    q_spin q = sgnR (f_xi psi) /\ q_j_fr q = f_j psi /\ (n1 < m)%nat /\ (r < freq_rows (bins t) lsf af (q_spin q) (fr_rate lsf af psi))%nat /\
    Z.of_nat n1 = Z.of_nat r * fr_stride lsf af (q_spin q) (q_j_fr q) (Z.of_nat m) /\
    nd_shape (q_coef q) = batch ++ [L]%nat /\
    let start := jstart t a (match a, j2 with NoAvg, Some j => j | NoAvg, None => 0 | _, _ => ls end) in
    forall i tau, (i < prod batch)%nat -> (tau < L)%nat ->
      at_ (signal L i (q_coef q)) tau =
      joint_value (s_phi (t_base t)) ls a (t_phi_fr t) (bins t) lsf af j2 (rows (padded (t_base t) (signal (Z.to_nat N) i x)))
        psi (q_spin q) (fr_rate lsf af psi) c r (start + tau) /\
      (start + tau < List.length (averaged_row (s_phi (t_base t)) ls a (bins t) j2 (rows (padded (t_base t) (signal (Z.to_nat N) i x))) psi (fr_rate lsf af psi) c r))%nat.
Proof.
  intros support p out t N batch x p0 S ls a lsf af q Hc Hm Hw Hsh Hb Hfmt HS Hq. pose proof Hc as (_ & _ & _ & HN & _).
  destruct (run_entries _ _ _ _ _ _ _ _ _ _ _ _ _ Hc Hm Hw Hsh Hb HS) as (l & r & mx & rows & Hr & Ex & Rx & _ & ->).
  apply in_flat_map in Hq as (e & He & Hq). unfold out_paths in Hq. rewrite Hfmt in Hq. cbn [String.eqb Ascii.eqb Bool.eqb] in Hq.
  apply in_map_iff in Hq as (k & <- & Hk). apply in_seq in Hk.
  destruct (entry_spec t (Z.to_nat N) l r mx ls a (bins t) lsf af Hr e He) as (psi & j2 & G & c & m & Hsrc & Hcn & Hm0 & Hpsi & Hsp & Hjf & Hn1 & Hj2 & Hem & _ & _ & _ & Hval).
  assert (ENp : padded_length (t_base t) N = (l + Z.to_nat N + r)%nat).
  { unfold padded_length. rewrite (jr_left _ _ _ _ _ _ _ _ _ _ _ Hr), (jr_right _ _ _ _ _ _ _ _ _ _ _ Hr). lia. }
  destruct (restride_same lsf af (e_q e)) as (R1 & R2 & R3 & R4 & R5).
  pose proof (entries_fmt complex_ops complex_ops_ok sgnR t _ _ _ _ _ _ _ _ _ Hr e He) as HF.
  pose proof (fo_s _ _ _ _ _ _ _ _ _ _ HF) as Hs.
  pose proof (entries_labels complex_ops complex_ops_ok sgnR t _ _ _ _ _ _ _ _ _ Hr e He) as HL.
  set (s := estride lsf af (e_q e)) in *.
  assert (Hks : Z.of_nat k * s < Z.of_nat m).
  { unfold nlabels in Hk. fold s in Hk. rewrite Hn1 in Hk.
    assert (Z.of_nat k + 1 <= (Z.of_nat m + s - 1) / s) by lia.
    pose proof (Z.mul_div_le (Z.of_nat m + s - 1) s ltac:(lia)). nia. }
  assert (Hkr : (k < jrows t lsf af e)%nat).
  { unfold jrows, ulen. unfold joint_array. rewrite Hfmt. cbn [String.eqb Ascii.eqb Bool.eqb]. rewrite andb_false_r. fold s.
    apply Nat.min_glb_lt; [|lia]. rewrite Hn1. assert (Z.of_nat k <= Z.of_nat m / s) by (apply Z.div_le_lower_bound; nia). lia. }
  exists (Z.to_nat (Z.of_nat k * s)), (q_n (e_q e)), psi, j2, G, c, m, k, (tcut_len (Z.to_nat N) l ls a (time_q lsf af e k) (jcols ls a e)).
  assert (Ejfr : q_j_fr (time_q lsf af e k) = q_j_fr (e_q e)).
  { unfold time_q, label, restride. destruct af; [destruct (_ =? _)|destruct (_ =? _)|]; reflexivity. }
  assert (Js : q_spin (time_q lsf af e k) = q_spin (e_q e)) by exact R4.
  assert (Jn : q_n (time_q lsf af e k) = Z.to_nat (Z.of_nat k * s) :: q_n (e_q e)).
  { unfold time_q, label. cbn [set_n q_n]. now rewrite R2. }
  assert (Jj : q_j (time_q lsf af e k) = q_j (e_q e)) by exact R1.
  cbn [set_coef q_coef q_n q_spin q_j_fr q_n1_max]. rewrite ENp, Js.
  destruct (entry_rows t _ _ _ _ _ _ _ _ _ Hr e psi He Hjf Hsp Hem Hpsi) as (W1 & _).
  split; [exact Jn|]. split; [exact Hsrc|]. split; [exact Hsp|]. split; [rewrite Ejfr; exact Hjf|]. split; [lia|]. split; [lia|].
  split. { rewrite Z2Nat.id by nia. f_equal. unfold s. rewrite estride_fr, Hn1, Ejfr. reflexivity. }
  split; [reflexivity|].
  cbv zeta. intros i tau Hi Ht.
  set (q := time_q lsf af e k) in *. set (L := tcut_len (Z.to_nat N) l ls a q (jcols ls a e)) in *.
  pose proof Rx as [Rx1 Rx2].
  assert (Hok : forall y, mat_ok (jrows t lsf af e) (jcols ls a e) (jmat complex_ops t (Z.to_nat N) l r ls a lsf af e y)).
  { intros y. exact (jmat_ok complex_ops complex_ops_ok sgnR t _ _ _ _ _ _ _ _ _ Hr e y He). }
  assert (Hlen : forall y, List.length (nth k (jmat complex_ops t (Z.to_nat N) l r ls a lsf af e y) []) = jcols ls a e).
  { intros y. destruct (Hok y) as [O1 O2]. rewrite Forall_forall in O2. apply O2, nth_In. rewrite O1. exact Hkr. }
  assert (Hrows : rows_ok batch L (map (fun row => tcut (Z.to_nat N) l ls a q (nth k (jmat complex_ops t (Z.to_nat N) l r ls a lsf af e row) [])) rows)).
  { eapply rows_ok_map; [|exact Rx]. intros y _. unfold L, tcut, tcut_len. destruct a; rewrite ?slice_length, Hlen; reflexivity. }
  rewrite signal_of by exact Hrows.
  rewrite (nth_map_in _ _ _ []) by (rewrite Rx1; exact Hi).
  destruct (tcut_at (Z.to_nat N) l ls a q _ _ tau (Hlen (nth i rows [])) Ht) as [T1 T2]. rewrite T1.
  rewrite (jstart_lo t l a _ (jr_left _ _ _ _ _ _ _ _ _ _ _ Hr)) in *.
  assert (Eres : jstart t a (tres ls a q) = jstart t a (match a, j2 with NoAvg, Some j => j | NoAvg, None => 0 | _, _ => ls end)).
  { destruct a; try reflexivity. f_equal. unfold tres. cbn [is_none_avg andb]. rewrite Hj2. unfold j2_of, second, jlast. rewrite Jn, Jj. cbn [List.length].
    destruct (entries_ok complex_ops complex_ops_ok sgnR t _ _ _ _ _ _ _ _ _ Hr e He) as (wj & wn & m' & c' & G' & nfr & psi' & -> & _ & _ & _ & _ & Hcase).
    cbn [entry_of e_q slot q_j q_n fst snd] in *. destruct Hcase as [(-> & -> & _)|(n2 & f2 & H2 & _ & -> & -> & _ & Hj)]; [reflexivity|].
    cbn [app List.length Nat.ltb Nat.leb List.last]. lia. }
  rewrite Eres in *. rewrite Forall_forall in Rx2.
  assert (Hlx : List.length (nth i rows []) = Z.to_nat N) by (apply Rx2, nth_In; rewrite Rx1; exact Hi).
  rewrite Hval by assumption.
  assert (Esig : signal (Z.to_nat N) i x = nth i rows []) by (rewrite Ex; now apply signal_of with (pre := batch)).
  assert (Epad : padded (t_base t) (signal (Z.to_nat N) i x) = pad_reflect_row complex_ops l r (Z.to_nat N) (nth i rows [])).
  { unfold padded. rewrite Esig, Hlx, (jr_left _ _ _ _ _ _ _ _ _ _ _ Hr), (jr_right _ _ _ _ _ _ _ _ _ _ _ Hr), !Nat2Z.id. reflexivity. }
  rewrite Epad. split; [reflexivity|].
  rewrite Hj2 in T2 |- *. rewrite Hcn, averaged_length. exact T2.
Qed.
Print Assumptions C64_time_coefficients.

(** The zeroth-order coefficient: the lowpass of the padded signal, its sum, or the padded signal itself. *)
Theorem C64_zeroth_order : forall support p out t N batch x p0 S ls a lsf af,
  jconstructed support p out t N -> modes t ls a lsf af -> nd_wf x -> nd_shape x = batch ++ [Z.to_nat N] -> (0 < prod batch)%nat ->
  jpaths np sgnR t x = Ok (p0, S) ->
  p_n p0 = [] /\ exists L, nd_shape (p_coef p0) = batch ++ [L] /\ (a = Global -> L = 1%nat) /\
    forall i tau, (i < prod batch)%nat -> (tau < L)%nat ->
      let xp := padded (t_base t) (signal (Z.to_nat N) i x) in
      at_ (signal L i (p_coef p0)) tau =
      match a with
      | Local => RtoC (Re (cconv xp (idft (lev (s_phi (t_base t)) 0)) ((first_kept (t_base t) ls + Z.of_nat tau) * 2 ^ ls)))
      | Global => csum (List.length xp) (at_ xp)
      | NoAvg => at_ xp (Z.to_nat (s_pad_left (t_base t)) + tau)
      end.
Proof.
  intros support p out t N batch x p0 S ls a lsf af Hc Hm Hw Hsh Hb HS. pose proof Hc as (_ & _ & _ & HN & _).
  destruct (run_entries _ _ _ _ _ _ _ _ _ _ _ _ _ Hc Hm Hw Hsh Hb HS) as (l & r & mx & rows & Hr & Ex & Rx & -> & _).
  cbn [p_n p_coef]. split; [reflexivity|]. exists (zeroth_len (Z.to_nat N) l r ls a). split; [reflexivity|].
  split; [intros ->; reflexivity|]. intros i tau Hi Ht. set (xp := padded (t_base t) (signal (Z.to_nat N) i x)).
  pose proof (jr_time _ _ _ _ _ _ _ _ _ _ _ Hr) as HT. pose proof (jt_ls _ _ _ _ _ _ HT) as Hls.
  pose proof Rx as [Rx1 Rx2]. rewrite Forall_forall in Rx2.
  assert (Hlx : List.length (nth i rows []) = Z.to_nat N) by (apply Rx2, nth_In; rewrite Rx1; exact Hi).
  assert (Exp : xp = pad_reflect_row complex_ops l r (Z.to_nat N) (nth i rows [])).
  { unfold xp, padded. replace (signal (Z.to_nat N) i x) with (nth i rows []) by (rewrite Ex; symmetry; now apply signal_of with (pre := batch)).
    rewrite Hlx, (jr_left _ _ _ _ _ _ _ _ _ _ _ Hr), (jr_right _ _ _ _ _ _ _ _ _ _ _ Hr), !Nat2Z.id. reflexivity. }
  assert (Hlp : List.length xp = (l + Z.to_nat N + r)%nat) by (rewrite Exp; apply pad_row_length).
  assert (Rz : rows_ok batch (zeroth_len (Z.to_nat N) l r ls a) (map (zeroth complex_ops t (Z.to_nat N) l r ls a) rows)).
  { eapply rows_ok_map; [|exact Rx]. intros y _. unfold zeroth, zeroth_len. destruct a; [|reflexivity|].
    - rewrite slice_length, (r_low_length complex_ops complex_ops_ok). reflexivity.
    - rewrite slice_length, pad_row_length. reflexivity. }
  rewrite signal_of by exact Rz. rewrite (nth_map_in _ _ _ []) by (rewrite Rx1; exact Hi).
  unfold zeroth. rewrite <- Exp. unfold zeroth_len in Ht. destruct a.
  - unfold at_ at 1. rewrite nth_slice by lia. fold (at_ (r_low complex_ops (s_phi (t_base t)) 0 ls (l + Z.to_nat N + r) xp) (jlo l ls + tau)).
    rewrite (r_low_spec (s_phi (t_base t)) 0 ls (l + Z.to_nat N + r) xp) by first [assumption | apply (jt_phi _ _ _ _ _ _ HT); reflexivity | apply (jt_div _ _ _ _ _ _ HT)].
    assert (E : first_kept (t_base t) ls = Z.of_nat (jlo l ls)).
    { unfold first_kept, jlo. rewrite (jr_left _ _ _ _ _ _ _ _ _ _ _ Hr). rewrite Z2Nat.id; [reflexivity|].
      unfold cdiv. pose proof (Z.div_le_upper_bound (- Z.of_nat l) (2 ^ ls) 0 (pow2_pos ls Hls)). lia. }
    rewrite E. replace (jlo l ls + tau)%nat with (Z.to_nat (Z.of_nat (jlo l ls) + Z.of_nat tau)) by lia.
    rewrite at_lowpass by (rewrite sampled_lowpass_length, Hlp; lia). rewrite p2_Z by exact Hls. now rewrite Z.mul_comm.
  - destruct tau; [|lia]. unfold at_ at 1. cbn [nth]. apply osum_at.
  - unfold at_ at 1. rewrite nth_slice by (rewrite ?Hlp; lia). rewrite (jr_left _ _ _ _ _ _ _ _ _ _ _ Hr), Nat2Z.id.
    replace (jlo l 0) with l; [reflexivity|]. unfold jlo, cdiv. rewrite Z.pow_0_r, Z.div_1_r. lia.
Qed.
Print Assumptions C64_zeroth_order.
