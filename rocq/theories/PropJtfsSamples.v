(** Property C63 for constructed objects: the number of time samples of the coefficients of joint time-frequency
    scattering. *)
From Coq Require Import String Reals ZArith QArith List Bool Arith Lia.
From Coquelicot Require Import Complex.
From Verif Require Import Base BaseProofs NdArray Backend Core1d Utils1d Utils1dProofs Frontend1d Construct1d NdProofs Rows1d FrontRows Mats
  ComplexOps Shape1d PropFilters1d PropShapes1d Dft Conv1d Value1d PropNumerics1d PropInvariance1d Tabulated1d
  Jtfs JtfsFront JtfsProofs JtfsRows JtfsFmt JtfsFull JtfsConstruct JtfsTotal PropJtfs JtfsReady JtfsRun SpecJtfsValue JtfsCoef PropJtfsValues PropJtfsRuns.
Import ListNotations.
Local Open Scope Z_scope.

(** Samples kept of an array of [Np / 2^k] samples cut at resolution [k]. *)
Lemma kept_multiples (l n Np : nat) k : 0 <= k -> Nat.divide (p2 k) Np -> (l + n <= Np)%nat ->
  (Nat.min (jhi n l k) (Np / p2 k) - Nat.min (jlo l k) (Np / p2 k))%nat = n_multiples k (Z.of_nat l) (Z.of_nat n).
Proof.
  intros Hk Hd Hle. rewrite <- hi_lo_multiples by exact Hk. pose proof (pow2_pos k Hk) as Hp.
  replace k with (Z.of_nat (Z.to_nat k)) in Hd |- * by lia.
  rewrite (kept_len l n Np (Z.to_nat k)); [|pose proof (p2_pos (Z.of_nat (Z.to_nat k))); lia|exact Hd|exact Hle].
  unfold hi, lo. rewrite Nat2Z.inj_add, Z2Nat.id by exact Hk.
  assert (0 <= cdiv (Z.of_nat l) (2 ^ k)).
  { unfold cdiv. pose proof (Z.div_le_upper_bound (- Z.of_nat l) (2 ^ k) 0 Hp). lia. }
  lia.
Qed.

Lemma cdiv_one i : cdiv i (2 ^ 0) = i.
Proof. unfold cdiv. rewrite Z.pow_0_r, Z.div_1_r. lia. Qed.

(** ** C63 *)
(** Every coefficient has one sample with T="global"; otherwise it has one sample per multiple of 2**res in the support
    of the unpadded signal, where 2**res is the rate of the coefficients: log2_stride with averaging and at order one,
    j2 at order two without averaging.  Left out: format 'time' at order one without averaging, where the code cuts at
    resolution 0 an array at resolution log2_stride (see [C63_time_format_refuted]). *)
Theorem C63_time_samples_partial : forall support p out t N batch x p0 S ls a lsf af q,
  jconstructed support p out t N -> modes t ls a lsf af -> nd_wf x -> nd_shape x = batch ++ [Z.to_nat N] -> (0 < prod batch)%nat ->
  jpaths np sgnR t x = Ok (p0, S) -> In q S ->
  t_format t = "joint"%string \/ List.length (q_j q) = 2%nat \/ a <> NoAvg ->
  (q_j q = [-1] \/ exists j2, q_j q = [-1; j2] /\ 0 <= j2 <= ls) /\
  exists pre L, nd_shape (q_coef q) = batch ++ pre ++ [L] /\
    (t_format t = "joint"%string -> List.length pre = 1%nat) /\ (t_format t <> "joint"%string -> pre = []) /\
    L = match a, q_j q with
        | Global, _ => 1%nat
        | NoAvg, [_; j2] => n_multiples j2 (s_pad_left (t_base t)) N
        | _, _ => n_multiples ls (s_pad_left (t_base t)) N
        end.
Proof.
  intros support p out t N batch x p0 S ls a lsf af q Hc Hm Hw Hsh Hb HS Hq Hcase. pose proof Hc as (_ & _ & _ & HN & _).
  destruct (run_entries _ _ _ _ _ _ _ _ _ _ _ _ _ Hc Hm Hw Hsh Hb HS) as (l & r & mx & rows & Hr & _ & Rx & _ & ->).
  apply in_flat_map in Hq as (e & He & Hq).
  destruct (out_paths_shape _ _ _ _ _ _ _ _ _ _ _ _ _ _ Hr Rx He Hq) as (_ & Sh).
  destruct (entries_ok complex_ops complex_ops_ok sgnR t _ _ _ _ _ _ _ _ _ Hr e He) as (wj & wn & m & c & G & nfr & psi & Ee & _ & _ & _ & _ & Hs).
  pose proof (jr_time _ _ _ _ _ _ _ _ _ _ _ Hr) as HT. pose proof (jt_ls _ _ _ _ _ _ HT) as Hls. pose proof (jt_div _ _ _ _ _ _ HT) as Hdv.
  destruct (restride_same lsf af (e_q e)) as (R1 & R2 & _).
  assert (Eq : q_j q = q_j (e_q e)).
  { destruct (String.eqb (t_format t) "joint") eqn:Ef.
    - unfold out_paths in Hq. rewrite Ef in Hq. destruct Hq as [<-|[]]. exact R1.
    - destruct Sh as (k & _ & -> & _). exact R1. }
  rewrite (jr_left _ _ _ _ _ _ _ _ _ _ _ Hr). rewrite Eq in Hcase |- *.
  assert (HnN : Z.of_nat (Z.to_nat N) = N) by lia. set (n := Z.to_nat N) in *.
  assert (Hlen : forall q', q_j q' = q_j (e_q e) -> (a = NoAvg -> List.length (q_j (e_q e)) = 2%nat -> (1 < List.length (q_n q'))%nat) ->
    (a = NoAvg -> List.length (q_j (e_q e)) = 1%nat -> (List.length (q_n q') <= 1)%nat) ->
    tcut_len n l ls a q' (jcols ls a e) =
    match a, q_j (e_q e) with Global, _ => 1%nat | NoAvg, [_; j2] => n_multiples j2 (Z.of_nat l) (Z.of_nat n) | _, _ => n_multiples ls (Z.of_nat l) (Z.of_nat n) end).
  { intros q' Ej H2 H1. unfold tcut_len, tres, jcols, tlen, jlast, second. rewrite Ej, Ee in *. cbn [entry_of e_q e_n slot q_j q_n fst snd] in *.
    destruct Hs as [(-> & -> & ->)|(n2 & f2 & _ & _ & -> & -> & -> & Hj2)]; cbn [app List.length List.last] in *; change (1 <? 1)%nat with false; change (1 <? 2)%nat with true; destruct a; cbn [is_none_avg andb]; try reflexivity.
    - apply kept_multiples; [exact Hls|exact Hdv|lia].
    - specialize (H1 eq_refl eq_refl). rewrite (proj2 (Nat.ltb_ge _ _)) by exact H1. apply kept_multiples; [exact Hls|exact Hdv|lia].
    - rewrite (proj2 (proj2 (p2_divide _ _ _ Hj2 Hdv))). apply kept_multiples; [exact Hls|exact Hdv|lia].
    - specialize (H2 eq_refl eq_refl). rewrite (proj2 (Nat.ltb_lt _ _)) by exact H2. rewrite Z.max_l by lia.
      apply kept_multiples; [lia| |lia]. eapply Nat.divide_trans; [|exact Hdv].
      exists (p2 (ls - f_j f2)). rewrite <- p2_add by lia. f_equal. lia. }
  rewrite HnN in Hlen.
  assert (Hqn : q_n (e_q e) = wn ++ [nfr]) by (rewrite Ee; reflexivity).
  assert (Hqj : q_j (e_q e) = wj) by (rewrite Ee; reflexivity).
  split.
  { rewrite Hqj. destruct Hs as [(-> & _)|(n2 & f2 & _ & _ & -> & _ & _ & Hj2)]; [left; reflexivity|right; exists (f_j f2); split; [reflexivity|exact Hj2]]. }
  destruct (String.eqb (t_format t) "joint") eqn:Ef.
  - exists [jrows t lsf af e], (tcut_len n l ls a (joint_q lsf af e) (jcols ls a e)). split; [exact Sh|]. apply String.eqb_eq in Ef.
    split; [reflexivity|]. split; [congruence|]. apply Hlen; [exact R1| |]; intros _ El; change (q_n (joint_q lsf af e)) with (q_n (restride lsf af (e_q e)));
      rewrite R2, Hqn; destruct Hs as [(Ew & -> & _)|(n2 & f2 & _ & _ & Ew & -> & _)]; rewrite Hqj, Ew in El; cbn in El |- *; lia.
  - destruct Sh as (k & _ & _ & Sh). apply String.eqb_neq in Ef. exists [], (tcut_len n l ls a (time_q lsf af e k) (jcols ls a e)). split; [exact Sh|].
    split; [congruence|]. split; [reflexivity|]. apply Hlen; [exact R1| |]; intros Ea El.
    + unfold time_q, label. cbn [set_n q_n List.length]. rewrite R2, Hqn, app_length. cbn. lia.
    + destruct Hcase as [H|[H|H]]; [congruence|lia|congruence].
Qed.
Print Assumptions C63_time_samples_partial.

(** Format 'time', order one, no averaging: the array of [Np / 2^log2_stride] samples is cut with the bounds of resolution
    0.  When log2_stride >= 2 and the padded length is at least twice the length, all of these coefficients are empty,
    whereas the unpadded support holds a multiple of 2**log2_stride. *)
Theorem C63_time_format_refuted : forall support p out t N batch x p0 S ls lsf af q,
  jconstructed support p out t N -> modes t ls NoAvg lsf af -> nd_wf x -> nd_shape x = batch ++ [Z.to_nat N] -> (0 < prod batch)%nat ->
  jpaths np sgnR t x = Ok (p0, S) -> In q S -> t_format t = "time"%string -> List.length (q_j q) = 1%nat ->
  let l := Z.to_nat (s_pad_left (t_base t)) in let c := (padded_length (t_base t) N / 2 ^ Z.to_nat ls)%nat in
  nd_shape (q_coef q) = batch ++ [Nat.min (l + Z.to_nat N) c - Nat.min l c]%nat /\
  (2 <= ls -> 2 ^ ls <= N -> 2 * N <= Z.of_nat (padded_length (t_base t) N) ->
   nd_shape (q_coef q) = batch ++ [0]%nat /\ (0 < n_multiples ls (s_pad_left (t_base t)) N)%nat).
Proof.
  intros support p out t N batch x p0 S ls lsf af q Hc Hm Hw Hsh Hb HS Hq Hfmt Hj l' c'. pose proof Hc as (_ & _ & _ & HN & _).
  destruct (run_entries _ _ _ _ _ _ _ _ _ _ _ _ _ Hc Hm Hw Hsh Hb HS) as (l & r & mx & rows & Hr & _ & Rx & _ & ->).
  apply in_flat_map in Hq as (e & He & Hq).
  destruct (out_paths_shape _ _ _ _ _ _ _ _ _ _ _ _ _ _ Hr Rx He Hq) as (_ & Sh).
  destruct (entries_ok complex_ops complex_ops_ok sgnR t _ _ _ _ _ _ _ _ _ Hr e He) as (wj & wn & m & c & G & nfr & psi & Ee & _ & _ & _ & _ & Hs).
  pose proof (jr_time _ _ _ _ _ _ _ _ _ _ _ Hr) as HT. pose proof (jt_ls _ _ _ _ _ _ HT) as Hls. pose proof (jt_div _ _ _ _ _ _ HT) as Hdv.
  destruct (restride_same lsf af (e_q e)) as (R1 & R2 & _).
  rewrite Hfmt in Sh. cbn [String.eqb Ascii.eqb Bool.eqb] in Sh. destruct Sh as (k & _ & Eq & Sh).
  assert (Ej : q_j q = wj) by (rewrite Eq; change (q_j (set_coef (q_coef q) (time_q lsf af e k))) with (q_j (restride lsf af (e_q e))); rewrite R1, Ee; reflexivity).
  destruct Hs as [(-> & -> & Hcn)|(n2 & f2 & _ & _ & -> & _)]; [|rewrite Ej in Hj; discriminate Hj].
  assert (ENp : padded_length (t_base t) N = (l + Z.to_nat N + r)%nat).
  { unfold padded_length. rewrite (jr_left _ _ _ _ _ _ _ _ _ _ _ Hr), (jr_right _ _ _ _ _ _ _ _ _ _ _ Hr). lia. }
  assert (El : l' = l) by (unfold l'; rewrite (jr_left _ _ _ _ _ _ _ _ _ _ _ Hr); lia).
  assert (Main : nd_shape (q_coef q) = batch ++ [Nat.min (l' + Z.to_nat N) c' - Nat.min l' c']%nat).
  { rewrite Sh. apply f_equal. f_equal. unfold tcut_len, tres. cbn [is_none_avg andb].
    assert (En : List.length (q_n (time_q lsf af e k)) = 2%nat) by (unfold time_q, label; cbn [set_n q_n List.length]; rewrite R2, Ee; reflexivity).
    assert (Ejl : jlast (time_q lsf af e k) = -1) by (unfold jlast; change (q_j (time_q lsf af e k)) with (q_j (restride lsf af (e_q e))); rewrite R1, Ee; reflexivity).
    rewrite En, Ejl. change (Nat.ltb 1 2) with true. cbn [Z.max].
    assert (Ec : jcols ls NoAvg e = c') by (unfold jcols, tlen; rewrite Ee; cbn [entry_of e_n]; rewrite Hcn; unfold c', p2; now rewrite ENp).
    rewrite Ec, El. unfold jhi, jlo. change (Z.max (-1) 0) with 0. rewrite !cdiv_one, !Nat2Z.id. reflexivity. }
  split; [exact Main|]. intros Hl2 HlN Hdbl. split.
  - rewrite Main. apply f_equal. f_equal. enough (c' <= l')%nat by lia. rewrite El. unfold c'. rewrite ENp in Hdbl |- *.
    pose proof (jr_r _ _ _ _ _ _ _ _ _ _ _ Hr). pose proof (jr_l _ _ _ _ _ _ _ _ _ _ _ Hr).
    assert (Hlr : (r <= l + 1)%nat).
    { destruct Hc as (Hsup & Hcon & EN & _). apply new_jtfs_inv in Hcon. destruct Hcon as (pb & Q_fr & q0 & q1 & F & Epb & EB & _).
      apply new_inv in EB. destruct EB as (b & Qs & T & l2T & phi & psi1s & psi2s & Hb' & _ & _ & _ & _ & _ & Es).
      destruct (build_inv _ _ _ Hb') as (_ & _ & _ & _ & EN' & _). rewrite Epb in EN'. cbn [p_shape] in EN'. assert (b_N b = N) by congruence.
      destruct (build_plan _ _ _ Hsup Hb' ltac:(lia)) as (_ & _ & _ & _ & _ & B & _).
      pose proof (jr_left _ _ _ _ _ _ _ _ _ _ _ Hr) as L1. pose proof (jr_right _ _ _ _ _ _ _ _ _ _ _ Hr) as L2. rewrite Es in L1, L2. cbn [s_pad_left s_pad_right] in L1, L2. lia. }
    assert (H4 : (4 <= 2 ^ Z.to_nat ls)%nat) by (change 4%nat with (2 ^ 2)%nat; apply Nat.pow_le_mono_r; lia).
    assert ((l + Z.to_nat N + r) / 2 ^ Z.to_nat ls < l + 1)%nat; [|lia].
    apply Nat.div_lt_upper_bound; [lia|]. nia.
  - rewrite (jr_left _ _ _ _ _ _ _ _ _ _ _ Hr). replace N with (Z.of_nat (Z.to_nat N)) by lia. rewrite <- hi_lo_multiples by exact Hls.
    unfold hi, lo. rewrite Nat2Z.inj_add, Z2Nat.id by lia. pose proof (pow2_pos ls Hls) as Hp. unfold cdiv.
    assert (- (Z.of_nat l + N) / 2 ^ ls <= - Z.of_nat l / 2 ^ ls - 1).
    { replace (- Z.of_nat l / 2 ^ ls - 1) with ((- Z.of_nat l + (-1) * 2 ^ ls) / 2 ^ ls) by (rewrite Z.div_add by lia; lia). apply Z.div_le_mono; lia. }
    pose proof (Z.div_le_upper_bound (- Z.of_nat l) (2 ^ ls) 0 Hp). lia.
Qed.
Print Assumptions C63_time_format_refuted.

(** J = 4, N = 100, Q = 1, T = F = 0 in format 'time': the object, its run on a batch of three signals, and a path of order one. *)
Example C63_time_format_instance : forall x, nd_wf x -> nd_dtype x = Real -> nd_shape x = [3; 100]%nat -> exists p t p0 S q,
  jconstructed (fun _ _ => 30) p "list" t 100 /\ modes t 4 NoAvg 1 NoAvg /\ jpaths np sgnR t x = Ok (p0, S) /\ In q S /\
  t_format t = "time"%string /\ List.length (q_j q) = 1%nat /\ 2 ^ 4 <= 100 /\ 2 * 100 <= Z.of_nat (padded_length (t_base t) 100).
Proof.
  intros x Hw Hdt Hsh.
  set (p := mk_jparams {| p_J := 4; p_shape := ShInt 100; p_Q := QInt 1; p_T := TNum 0; p_stride := SNone; p_max_order := 2; p_oversampling := ONone |}
    1 (QInt 1) (TNum 0) SNone "time").
  assert (Hsup : forall (n : Z) (u : Q), 0 <= 30) by (intros; lia).
  assert (Hbase : exists base, Scattering1D (fun _ _ => 30) (jp_base p) "list" = Ok base /\ padded_length base 100 = 256%nat).
  { destruct (build_total (fun _ _ => 30) (jp_base p) 100 SNone (Qpower 2 4)) as [b Hb]; try assumption; try reflexivity; try lia.
    destruct (build_inv _ _ _ Hb) as (st & T' & l' & r & EN' & EO & ET' & _ & Eb).
    assert (EbN : b_N b = 100) by (cbn in EN'; congruence). rewrite EbN in *. cbn in EO. injection EO as <-.
    assert (ENp : b_Npad b = 256) by (rewrite Eb; reflexivity).
    destruct (new_total (fun _ _ => 30) (jp_base p) "list" b 1 1 4) as [s Hs]; try assumption; try lia; try reflexivity.
    { cbn; lia. } { rewrite EbN. reflexivity. } { rewrite ENp. cbn. lia. }
    exists s. split; [exact Hs|]. apply new_inv in Hs. destruct Hs as (b' & Qs & T & l2T & phi & psi1s & psi2s & Hb' & _ & _ & _ & _ & _ & Es).
    rewrite Hb in Hb'. injection Hb' as <-. destruct (build_plan _ _ _ Hsup Hb ltac:(lia)) as (_ & _ & _ & _ & B & _).
    unfold padded_length. rewrite Es. cbn [s_pad_left s_pad_right]. lia. }
  destruct Hbase as (base & Hbase & ENp).
  destruct (new_jtfs_total (fun _ _ => 30) p "list"%string base 1 (QI 1) 1 (Qpower 2 1)) as (t & H & Et); try reflexivity; try exact Hbase; [cbn; lia|].
  assert (Hc : jconstructed (fun _ _ => 30) p "list" t 100) by (repeat split; try assumption; cbn; lia).
  assert (Hm : modes t 4 NoAvg 1 NoAvg /\ t_format t = "time"%string /\ s_out_type (t_base t) = "list"%string).
  { pose proof H as H0. apply new_jtfs_inv in H0. destruct H0 as (pb & Q_fr & q0 & q1 & F & Epb & EB & _ & EQ' & _ & _ & Elsf & Eaf & Ef & _).
    assert (q0 = 1) by (subst pb; cbn in EQ'; congruence). subst q0.
    apply new_inv in EB. destruct EB as (b & Qs & T & l2T & phi & psi1s & psi2s & Hb & _ & _ & _ & _ & _ & Es).
    destruct (build_inv _ _ _ Hb) as (st & T0 & l0 & r0 & EN' & Eov & _ & _ & Eb).
    assert (EbN : b_N b = 100) by (subst pb; cbn in EN'; congruence).
    assert (Est : b_stride b = SNone) by (rewrite Eb; cbn [b_stride]; subst pb; cbn in Eov; congruence).
    split; [|split; [exact Ef|rewrite Es; reflexivity]]. unfold modes. rewrite Es, Elsf, Eaf. cbn [s_log2_stride s_average]. rewrite Est, EbN. subst pb.
    repeat split; reflexivity. }
  destruct Hm as (Hm & Ef & Eo). pose proof Hm as (M1 & M2 & M3 & M4).
  assert (A : aligned p t 100 4 NoAvg 1 NoAvg).
  { constructor; try assumption; try reflexivity; try discriminate; try (cbn; lia).
    - exists 1, 1. split; [reflexivity|lia].
    - destruct (C38_padding_partial (fun _ _ => 30) p "list"%string t 1 (QI 1) (Qpower 2 1) ltac:(cbn; lia) ltac:(cbn; lia) H eq_refl eq_refl) as (_ & _ & G & _).
      unfold Qlt, Qminus, Qplus, Qopp, inject_Z in G. cbn in G. lia. }
  destruct (new_jready _ _ _ _ _ _ _ _ _ Hsup H A) as (l & r & mx & Hr).
  destruct (of_rows_intro x [3%nat] 100 Hw Hsh) as (rows & Ex & Rx). rewrite Hdt in Ex.
  assert (Hchk : jcheck_runtime_args t = Ok tt) by (unfold jcheck_runtime_args, check_runtime_args; rewrite Eo, Ef, M2, M4; reflexivity).
  pose proof (jpaths_rows complex_ops complex_ops_ok sgnR t _ _ _ _ _ _ _ _ _ Hr [3%nat] rows Rx Hchk) as E. change (Z.to_nat 100) with 100%nat in E. rewrite <- Ex in E.
  destruct (new_jtfs_bank _ _ _ _ (ltac:(cbn; lia) : 0 <= jp_J_fr p) H) as (low & pos & neg & Eb & Hx & Hj & _).
  match type of E with _ = Ok (?a, ?b) => set (p0 := a) in E; set (S := b) in E end.
  assert (Hq : exists q, In q S /\ List.length (q_j q) = 1%nat).
  { set (e0 := entry_of complex_ops sgnR (Z.to_nat (f_N (t_phi_fr t))) 1 NoAvg [-1] [] (List.length (s_psi1 (t_base t))) ((l + 100 + r) / p2 4)
                 (time1 complex_ops (s_phi (t_base t)) (s_psi1 (t_base t)) (l + 100 + r) 4 false) (0%nat, low)).
    assert (He : In e0 (entries complex_ops sgnR t 100 l r 4 NoAvg (Z.to_nat (f_N (t_phi_fr t))) 1 NoAvg)).
    { unfold entries. apply in_app_iff. left. apply in_map, In_enumerate. rewrite Eb. unfold nonneg. cbn [List.filter]. now rewrite Hx, sgnR_0. }
    pose proof (entries_labels complex_ops complex_ops_ok sgnR t _ _ _ _ _ _ _ _ _ Hr e0 He) as HL.
    destruct (restride_same 1 NoAvg (e_q e0)) as (R1 & _).
    eexists. split; [apply in_flat_map; exists e0; split; [exact He|unfold out_paths; rewrite Ef; cbn [String.eqb Ascii.eqb Bool.eqb];
      apply in_map with (x := 0%nat), in_seq; lia]|]. transitivity (List.length (q_j (restride 1 NoAvg (e_q e0)))); [reflexivity|now rewrite R1]. }
  destruct Hq as (q & Hq & Hq1). exists p, t, p0, S, q. rewrite Et, ENp. repeat split; try assumption; try apply Hc; try lia.
Qed.
(** With averaging, both formats: any length N >= 4. *)
Example C63_time_samples_instance : forall N format, 4 <= N -> In format ["joint"; "time"]%string ->
  let x := mk_nd Real [3; Z.to_nat N]%nat (map (fun i => RtoC (INR i)) (seq 0 (3 * Z.to_nat N))) in
  exists t p0 S q, jconstructed (fun _ _ => 1) (default_jparams 2 N 8 1 TNone format) "list" t N /\ modes t 2 Local 1 Local /\
    nd_wf x /\ jpaths np sgnR t x = Ok (p0, S) /\ In q S /\ Local <> NoAvg.
Proof.
  intros N format HN Hf x. destruct (C40_C64_instance N format HN Hf) as (t & p0 & S & Ht & Hm & Hw & _ & HS & Hne).
  destruct S as [|q S]; [congruence|]. exists t, p0, (q :: S), q. repeat split; try assumption; try apply Ht; try apply Hm; [now left|discriminate].
Qed.
