(** Property C110: joint time-frequency scattering follows the translations of its input. *)
From Coq Require Import String Reals ZArith QArith List Bool Arith Lia.
From Coquelicot Require Import Complex.
From Verif Require Import Base BaseProofs NdArray Backend Core1d Utils1d Utils1dProofs Frontend1d Frontend1dProofs NdProofs Rows1d FrontRows Mats
  Factory1d FactoryProofs ComplexOps FilterBank1d FilterBank1dProofs Construct1d Shape1d PropFilters1d PropShapes1d Dft Conv1d Value1d Tabulated1d PropNumerics1d
  Jtfs JtfsFront JtfsProofs JtfsKeys JtfsRows JtfsFmt JtfsFull JtfsConstruct JtfsMeta JtfsTotal PropJtfs JtfsReady JtfsRun SpecJtfsValue JtfsValue JtfsCoef
  PropInvariance1d PropJtfsValues PropJtfsRuns JtfsShift.
Import ListNotations.
Local Open Scope Z_scope.
Local Open Scope res_scope.

(** ** Vocabulary *)
(** What [jpaths] does with a padded batch before it removes the padding (base_frontend.py:592-599). *)
Definition paths_of_padded (t : jtfs (nd C) R) (ls : Z) (a : avg) (lsf : Z) (af : avg) (U : nd C) : res (path (nd C) * list (jpath (nd C))) :=
  G <- joint_scattering np sgnR U (s_phi (t_base t)) (s_psi1 (t_base t)) (s_psi2 (t_base t)) ls (is_local_avg a)
         (t_phi_fr t) (t_psis_fr t) lsf (is_local_avg af) ;;
  average_and_format np false (s_phi (t_base t)) ls a (t_phi_fr t) lsf af (s_out_type (t_base t)) (t_format t) G.
(** The labels of a path. *)
Definition jlabels (q : jpath (nd C)) : jpath unit := set_coef tt q.
(** Time resolution of a path of scales [js]: every [2^ls] samples, or every [2^j2] for an unaveraged second-order path. *)
Definition time_res (ls : Z) (a : avg) (js : list Z) : Z := match a, js with NoAvg, [_; j2] => j2 | _, _ => ls end.

(** ** C110 *)
(** [U] is a padded batch, [U'] the same with every signal shifted circularly by [d] strides.  The row of [B; 1; R; L]
    coefficients read at [i * R + r] is row [r] of signal [i]. *)
Theorem C110_translation : forall support p out t N batch x v ls a lsf af B (U U' : nd C) d,
  jconstructed support p out t N -> modes t ls a lsf af ->
  nd_wf x -> nd_shape x = batch ++ [Z.to_nat N] -> (0 < prod batch)%nat -> jpaths np sgnR t x = Ok v ->
  let Np := padded_length (t_base t) N in
  nd_wf U -> nd_dtype U = Real -> nd_shape U = [B; 1; Np]%nat -> nd_wf U' -> nd_dtype U' = Real -> nd_shape U' = [B; 1; Np]%nat ->
  (forall i, (i < B)%nat -> signal Np i U' = rotate (d * 2 ^ ls) (signal Np i U)) ->
  exists p0 S p0' S', paths_of_padded t ls a lsf af U = Ok (p0, S) /\ paths_of_padded t ls a lsf af U' = Ok (p0', S') /\
    map jlabels S' = map jlabels S /\
    (exists L, nd_shape (p_coef p0) = [B; 1; L]%nat /\ nd_shape (p_coef p0') = [B; 1; L]%nat /\
       match a with Local => Z.of_nat Np = Z.of_nat L * 2 ^ ls | Global => L = 1%nat | NoAvg => L = Np end /\
       forall i, (i < B)%nat -> signal L i (p_coef p0') =
         match a with Local => rotate d (signal L i (p_coef p0)) | Global => signal L i (p_coef p0) | NoAvg => rotate (d * 2 ^ ls) (signal L i (p_coef p0)) end) /\
    forall k q q', nth_error S k = Some q -> nth_error S' k = Some q' ->
      let res := time_res ls a (q_j q) in
      exists R L, 0 <= res <= ls /\ nd_shape (q_coef q) = [B; 1; R; L]%nat /\ nd_shape (q_coef q') = [B; 1; R; L]%nat /\
        match a with Global => L = 1%nat | _ => Z.of_nat Np = Z.of_nat L * 2 ^ res end /\
        forall i r, (i < B)%nat -> (r < R)%nat ->
          signal L (i * R + r) (q_coef q') =
          match a with Global => signal L (i * R + r) (q_coef q) | _ => rotate (d * 2 ^ (ls - res)) (signal L (i * R + r) (q_coef q)) end.
Proof.
  intros support p out t N batch x [v0 vS] ls a lsf af B U U' d Hc Hm Hw Hsh Hb HS Np HwU HdU HsU HwU' HdU' HsU' Hrot.
  destruct (run_entries _ _ _ _ _ _ _ _ _ _ _ _ _ Hc Hm Hw Hsh Hb HS) as (l & r & mx & rows0 & Hr & _ & _ & _ & _).
  assert (ENp : Np = (l + Z.to_nat N + r)%nat).
  { unfold Np, padded_length. rewrite (jr_left _ _ _ _ _ _ _ _ _ _ _ Hr), (jr_right _ _ _ _ _ _ _ _ _ _ _ Hr). destruct Hc as (_ & _ & _ & HN & _). lia. }
  clearbody Np. subst Np.
  assert (Hfmt : t_format t = "joint"%string \/ t_format t = "time"%string).
  { unfold jpaths in HS. inv_bind HS. unfold jcheck_runtime_args in E. inv_bind E. inv_bind E.
    destruct (String.eqb_spec (t_format t) "time"); [now right|]. destruct (String.eqb_spec (t_format t) "joint"); [now left|discriminate]. }
  clear HS. set (n := Z.to_nat N) in *. set (Nn := (l + n + r)%nat) in *.
  pose proof (jr_time _ _ _ _ _ _ _ _ _ _ _ Hr) as Ht. pose proof (jt_ls _ _ _ _ _ _ Ht) as Hls. pose proof (jt_div _ _ _ _ _ _ Ht) as Hdiv.
  pose proof (jt_N _ _ _ _ _ _ Ht) as HN0. fold n Nn in Hdiv, HN0.
  destruct (of_rows_intro U [B; 1]%nat Nn HwU HsU) as (rows & EU & RU). rewrite HdU in EU.
  destruct (of_rows_intro U' [B; 1]%nat Nn HwU' HsU') as (rows' & EU' & RU'). rewrite HdU' in EU'.
  pose proof (core_rows t n l r mx ls a (bins t) lsf af Hr B rows Hfmt RU) as C1.
  pose proof (core_rows t n l r mx ls a (bins t) lsf af Hr B rows' Hfmt RU') as C2.
  fold Nn in C1, C2. rewrite <- EU in C1. rewrite <- EU' in C2.
  assert (LB : List.length rows = B) by (destruct RU as [E _]; cbn in E; lia).
  assert (LB' : List.length rows' = B) by (destruct RU' as [E _]; cbn in E; lia).
  assert (Hrow : forall i, (i < B)%nat -> List.length (nth i rows []) = Nn).
  { intros i Hi. destruct RU as [_ F]. rewrite Forall_forall in F. apply F, nth_In. lia. }
  assert (Hrot' : forall i, (i < B)%nat -> nth i rows' [] = rotate (Z.of_nat (p2 ls) * d) (nth i rows [])).
  { intros i Hi. specialize (Hrot i Hi). rewrite EU, EU', !signal_of in Hrot by assumption. rewrite Hrot, p2_Z by exact Hls. f_equal. lia. }
  eexists _, _, _, _. split; [exact C1|]. split; [exact C2|]. clear C1 C2.
  split.
  { rewrite !flat_map_concat_map, !concat_map, !map_map. f_equal. apply map_ext. intros e. unfold padded_paths.
    destruct (String.eqb (t_format t) "joint"); [reflexivity|]. rewrite !map_map. reflexivity. }
  assert (ZL : forall k, 0 <= k <= ls -> Z.of_nat Nn = Z.of_nat (Nn / p2 k) * 2 ^ k).
  { intros k Hk. destruct (p2_divide k ls Nn Hk Hdiv) as ([m Em] & _). pose proof (p2_pos k). rewrite Em at 1. rewrite Em, Nat.div_mul, <- p2_Z by lia. lia. }
  assert (Hone : forall e (y : list C), List.length y = 1%nat -> rotate e y = y).
  { intros e [|c [|c' y]] Ey; cbn in Ey; try discriminate. unfold rotate. cbn [List.length seq map]. rewrite Z.mod_1_r. reflexivity. }
  split.
  { exists (len0 n l r ls a). cbn [p_coef]. split; [reflexivity|]. split; [reflexivity|].
    split. { unfold len0. destruct a; [apply ZL; lia|reflexivity|reflexivity]. }
    assert (R0 : forall rs, rows_ok [B; 1]%nat Nn rs -> rows_ok [B; 1]%nat (len0 n l r ls a) (map (padded0 t n l r ls a) rs)).
    { intros rs Hrs. eapply rows_ok_map; [|exact Hrs]. intros y Hy. unfold padded0, len0. destruct a; [apply (r_low_length complex_ops complex_ops_ok)|reflexivity|exact Hy]. }
    intros i Hi. rewrite !signal_of by (apply R0; assumption). rewrite !(nth_map_in _ _ _ []) by lia. rewrite Hrot' by exact Hi.
    unfold padded0. fold Nn. set (y := nth i rows []). assert (Hy : List.length y = Nn) by (now apply Hrow). destruct a.
    - assert (Lv : level_ok (s_phi (t_base t)) 0 Nn) by (apply (jt_phi _ _ _ _ _ _ Ht); reflexivity).
      rewrite !(r_low_spec (s_phi (t_base t)) 0 ls Nn) by (rewrite ?rotate_length; assumption).
      apply rotate_lowpass; rewrite ?Hy; try assumption. apply p2_pos.
    - now rewrite osum_rotate by (rewrite Hy; exact HN0).
    - rewrite p2_Z by exact Hls. f_equal. lia. }
  (* paths *)
  assert (Hpick : forall k q q', nth_error (flat_map (padded_paths t ls a lsf af B rows) (entries complex_ops sgnR t n l r ls a (bins t) lsf af)) k = Some q ->
      nth_error (flat_map (padded_paths t ls a lsf af B rows') (entries complex_ops sgnR t n l r ls a (bins t) lsf af)) k = Some q' ->
      exists e j, In e (entries complex_ops sgnR t n l r ls a (bins t) lsf af) /\
        nth_error (padded_paths t ls a lsf af B rows e) j = Some q /\ nth_error (padded_paths t ls a lsf af B rows' e) j = Some q').
  { generalize (entries complex_ops sgnR t n l r ls a (bins t) lsf af). intros L. induction L as [|e L IH]; intros k q q' H1 H2; [destruct k; discriminate|].
    cbn [flat_map] in H1, H2.
    assert (EL : List.length (padded_paths t ls a lsf af B rows e) = List.length (padded_paths t ls a lsf af B rows' e)).
    { unfold padded_paths. destruct (String.eqb _ _); [reflexivity|]. now rewrite !map_length. }
    destruct (Nat.lt_ge_cases k (List.length (padded_paths t ls a lsf af B rows e))) as [Hk|Hk].
    - rewrite nth_error_app1 in H1 by exact Hk. rewrite nth_error_app1 in H2 by (rewrite <- EL; exact Hk). exists e, k. split; [now left|]. split; assumption.
    - rewrite nth_error_app2 in H1 by exact Hk. rewrite nth_error_app2 in H2 by (rewrite <- EL; exact Hk). rewrite <- EL in H2.
      destruct (IH _ _ _ H1 H2) as (e' & j & He & J1 & J2). exists e', j. split; [now right|]. split; assumption. }
  intros k q q' Hq Hq'. destruct (Hpick _ _ _ Hq Hq') as (e & j & He & J1 & J2). clear Hq Hq' Hpick.
  assert (Hcore : forall y y', List.length y = Nn -> y' = rotate (Z.of_nat (p2 ls) * d) y ->
     (forall r', (r' < jrows t lsf af e)%nat -> nth r' (emat t ls a lsf af e y') [] =
       match a with Global => nth r' (emat t ls a lsf af e y) [] | _ => rotate (d * 2 ^ (ls - time_res ls a (q_j (e_q e)))) (nth r' (emat t ls a lsf af e y) []) end) /\
     0 <= time_res ls a (q_j (e_q e)) <= ls /\
     match a with Global => jcols ls a e = 1%nat | _ => Z.of_nat Nn = Z.of_nat (jcols ls a e) * 2 ^ time_res ls a (q_j (e_q e)) end).
  { intros y y' Hy ->.
    destruct (emat_rotate t n l r mx ls a (bins t) lsf af Hr e d y He Hy) as (R1 & R2 & R3).
    change (row_res ls a (e_q e)) with (time_res ls a (q_j (e_q e))) in *.
    destruct (emat_ok t n l r mx ls a (bins t) lsf af Hr e y He) as [M1 M2]. rewrite Forall_forall in M2.
    split; [|split; [exact R2|]].
    - intros r' Hr'. assert (Lr : List.length (nth r' (emat t ls a lsf af e y) []) = jcols ls a e) by (apply M2, nth_In; rewrite M1; exact Hr').
      rewrite R1, p2_Z by (try exact Hr'; lia). rewrite (Z.mul_comm _ d). destruct a; try reflexivity. apply Hone. rewrite Lr. exact R3.
    - destruct a; [rewrite R3; apply ZL; exact R2|exact R3|rewrite R3; apply ZL; exact R2]. }
  destruct (Hcore (repeat (RtoC 0) Nn) _ (repeat_length _ _) eq_refl) as (_ & F1 & F2).
  assert (Hq : forall i r', (i < B)%nat -> (r' < jrows t lsf af e)%nat -> nth r' (emat t ls a lsf af e (nth i rows' [])) [] =
       match a with Global => nth r' (emat t ls a lsf af e (nth i rows [])) [] | _ => rotate (d * 2 ^ (ls - time_res ls a (q_j (e_q e)))) (nth r' (emat t ls a lsf af e (nth i rows [])) []) end).
  { intros i r' Hi Hr'. apply (Hcore (nth i rows []) (nth i rows' [])); [now apply Hrow|now apply Hrot'|exact Hr']. }
  clear Hcore. destruct (restride_same lsf af (e_q e)) as (Rj & _).
  pose proof (fun y => emat_ok t n l r mx ls a (bins t) lsf af Hr e y He) as Hok.
  unfold padded_paths in J1, J2. destruct (String.eqb_spec (t_format t) "joint") as [Ej|Ej].
  - destruct j as [|j]; [|destruct j; discriminate]. cbn [nth_error] in J1, J2. injection J1 as <-. injection J2 as <-.
    cbn [set_coef q_j q_coef]. unfold joint_q at 1. cbn [set_order q_j].
    change (q_j (joint_q lsf af e)) with (q_j (restride lsf af (e_q e))). rewrite Rj.
    exists (jrows t lsf af e), (jcols ls a e). split; [exact F1|]. split; [reflexivity|]. split; [reflexivity|]. split; [exact F2|].
    intros i r' Hi Hr'. unfold of_mats.
    assert (W : forall rs, List.length rs = B -> rows_ok [B; 1; jrows t lsf af e]%nat (jcols ls a e) (concat (map (emat t ls a lsf af e) rs))).
    { intros rs Hrs. apply mats_rows. split; [now rewrite map_length|]. apply Forall_map, Forall_forall. intros y _. apply Hok. }
    assert (Wc : forall rs, List.length rs = B -> nth (i * jrows t lsf af e + r') (concat (map (emat t ls a lsf af e) rs)) [] = nth r' (emat t ls a lsf af e (nth i rs [])) []).
    { intros rs Hrs. rewrite (nth_concat (jrows t lsf af e)); [|apply Forall_map, Forall_forall; intros y _; apply Hok|now rewrite map_length, Hrs|exact Hr'].
      rewrite (nth_map_in _ _ _ []) by lia. reflexivity. }
    rewrite !signal_of by (apply W; assumption). rewrite !Wc by assumption. now apply Hq.
  - apply nth_error_map_seq in J1 as [I1 ->]. apply nth_error_map_seq in J2 as [_ ->]. rename j into i1.
    assert (Hi1 : (i1 < jrows t lsf af e)%nat).
    { pose proof (entries_labels complex_ops complex_ops_ok sgnR t _ _ _ _ _ _ _ _ _ Hr e He) as HL.
      pose proof (entries_fmt complex_ops complex_ops_ok sgnR t _ _ _ _ _ _ _ _ _ Hr e He) as HF. pose proof (fo_s _ _ _ _ _ _ _ _ _ _ HF). pose proof (fo_max _ _ _ _ _ _ _ _ _ _ HF).
      unfold jrows, ulen. destruct (joint_array _ _); [lia|]. apply Nat.min_glb_lt; [|lia]. unfold nlabels in I1. set (s := estride lsf af (e_q e)) in *.
      pose proof (Z.div_pos (q_n1_max (e_q e)) s). assert ((q_n1_max (e_q e) + s - 1) / s <= 1 + q_n1_max (e_q e) / s)%Z; [|lia].
      replace (1 + q_n1_max (e_q e) / s)%Z with ((q_n1_max (e_q e) + 1 * s) / s)%Z by (rewrite Z.div_add by lia; lia). apply Z.div_le_mono; lia. }
    cbn [set_coef q_j q_coef]. change (q_j (time_q lsf af e i1)) with (q_j (restride lsf af (e_q e))). rewrite Rj.
    exists 1%nat, (jcols ls a e). split; [exact F1|]. split; [reflexivity|]. split; [reflexivity|]. split; [exact F2|].
    intros i r' Hi Hr'. replace (i * 1 + r')%nat with i by lia.
    assert (W : forall rs, List.length rs = B -> rows_ok [B; 1; 1]%nat (jcols ls a e) (map (fun row => nth i1 (emat t ls a lsf af e row) []) rs)).
    { intros rs Hrs. split; [rewrite map_length, Hrs; cbn; lia|]. apply Forall_map, Forall_forall. intros y _. destruct (Hok y) as [M1 M2].
      rewrite Forall_forall in M2. apply M2, nth_In. rewrite M1. exact Hi1. }
    rewrite !signal_of by (apply W; assumption). rewrite !(nth_map_in _ _ _ []) by lia. now apply Hq.
Qed.
Print Assumptions C110_translation.

(** J = 4, N = 100, Q = 1, F = 0, all three averaging modes and both formats: the object accepts a batch of ramps, and a padded batch
    of 3 signals is shifted by 2 strides of 16 samples. *)
Definition shift_params (T : tval) (format : string) : jparams :=
  mk_jparams {| p_J := 4; p_shape := ShInt 100; p_Q := QInt 1; p_T := T; p_stride := SNone; p_max_order := 2; p_oversampling := ONone |}
    1 (QInt 1) (TNum 0) SNone format.
Example C110_instance : forall T a format, In (T, a) [(TNone, Local); (TGlobal, Global); (TNum 0, NoAvg)] -> In format ["joint"; "time"]%string ->
  let x := mk_nd Real [3; 100]%nat (map (fun i => RtoC (INR i)) (seq 0 300)) in
  let ramps := map (fun i => map (fun u => RtoC (INR (i + u))) (seq 0 256)) [0; 1; 2]%nat in
  let U := of_rows Real [3; 1]%nat 256 ramps in let U' := of_rows Real [3; 1]%nat 256 (map (rotate (2 * 2 ^ 4)) ramps) in
  exists t v, jconstructed (fun _ _ => 30) (shift_params T format) "list" t 100 /\ modes t 4 a 1 NoAvg /\
    padded_length (t_base t) 100 = 256%nat /\ nd_wf x /\ jpaths np sgnR t x = Ok v /\ snd v <> [] /\
    nd_wf U /\ nd_dtype U = Real /\ nd_shape U = [3; 1; 256]%nat /\ nd_wf U' /\ nd_dtype U' = Real /\ nd_shape U' = [3; 1; 256]%nat /\
    forall i, (i < 3)%nat -> signal 256 i U' = rotate (2 * 2 ^ 4) (signal 256 i U).
Proof.
  intros T a format HT Hf x ramps U U'. set (p := shift_params T format).
  assert (Hsup : forall (n : Z) (u : Q), 0 <= 30) by (intros; lia).
  assert (Hw : nd_wf x) by (unfold nd_wf, x; cbn [nd_data nd_shape]; rewrite map_length, seq_length; reflexivity).
  assert (Hbase : exists base, Scattering1D (fun _ _ => 30) (jp_base p) "list" = Ok base /\ s_average base = Ok a /\ s_log2_stride base = Ok 4 /\
    padded_length base 100 = 256%nat /\ map f_j (s_psi2 base) = [0; 0; 0; 1; 2]).
  { destruct (PropInvariance1d.concrete_objects T a HT) as (b0 & (_ & Hs & _) & Ea & Els & ENp & _ & F2 & _).
    unfold new_scattering1d in Hs |- *. inv_bind Hs. change (build (fun _ _ => 30) (jp_base p)) with (build (fun _ _ => 30) (mk_params 4 100 (QInt 1) T SNone 2)). rewrite E. cbn [bind].
    inv_bind Hs. change (p_Q (jp_base p)) with (QInt 1). cbn [mk_params p_Q] in E0. rewrite E0. cbn [bind].
    inv_bind Hs. cbn [mk_params p_T p_J] in E1. change (p_T (jp_base p)) with T. change (p_J (jp_base p)) with 4. rewrite E1. cbn [bind].
    inv_bind Hs. cbn [mk_params p_T p_J] in E2. rewrite E2. cbn [bind].
    inv_bind Hs. cbn [mk_params p_T p_J] in E3. rewrite E3. cbn [bind]. destruct v3 as [phi psis].
    destruct psis as [|psi1s [|psi2s [|]]]; try discriminate. inv_bind Hs. rewrite E4. cbn [bind]. injection Hs as <-. eexists. split; [reflexivity|]. repeat split; assumption. }
  destruct Hbase as (base & Hbase & Ea & Els & ENp & F2).
  destruct (new_jtfs_total (fun _ _ => 30) p "list"%string base 1 (QI 1) 1 (Qpower 2 1)) as (t & H & Et); try reflexivity; try exact Hbase; [cbn; lia|].
  assert (Hc : jconstructed (fun _ _ => 30) p "list" t 100) by (repeat split; try assumption; cbn; lia).
  assert (Hm : modes t 4 a 1 NoAvg /\ t_format t = format /\ s_out_type (t_base t) = "list"%string).
  { pose proof H as H0. apply new_jtfs_inv in H0. destruct H0 as (pb & Q_fr & q0 & q1 & F & Epb & EB & _ & EQ' & _ & _ & Elsf & Eaf & Ef & _).
    assert (q0 = 1) by (subst pb; cbn in EQ'; congruence). subst q0.
    split; [|split; [exact Ef|]].
    - unfold modes. rewrite Et, Elsf, Eaf. repeat split; try assumption; reflexivity.
    - apply new_inv in EB. destruct EB as (b & Qs & T0 & l2T & phi & psi1s & psi2s & Hb & _ & _ & _ & _ & _ & Es). rewrite Es. reflexivity. }
  destruct Hm as (Hm & Ef & Eo). pose proof Hm as (M1 & M2 & M3 & M4).
  assert (A : aligned p t 100 4 a 1 NoAvg).
  { constructor; try assumption; try reflexivity; try discriminate; try (cbn; lia).
    - exists 1, 1. split; [reflexivity|lia].
    - intros _. split.
      + intros f2 H2. rewrite Et in H2. apply (in_map f_j) in H2. rewrite F2 in H2. cbn in H2. lia.
      + exists 4. split; [|lia]. destruct HT as [E|[E|[E|[]]]]; injection E as <- <-; reflexivity.
    - destruct (C38_padding_partial (fun _ _ => 30) p "list"%string t 1 (QI 1) (Qpower 2 1) ltac:(cbn; lia) ltac:(cbn; lia) H eq_refl eq_refl) as (_ & _ & G & _).
      unfold Qlt, Qminus, Qplus, Qopp, inject_Z in G. cbn in G. lia. }
  destruct (new_jready _ _ _ _ _ _ _ _ _ Hsup H A) as (l & r & mx & Hr).
  destruct (of_rows_intro x [3%nat] 100 Hw eq_refl) as (rows & Ex & Rx). change (nd_dtype x) with Real in Ex.
  assert (Hchk : jcheck_runtime_args t = Ok tt).
  { unfold jcheck_runtime_args, check_runtime_args. rewrite Eo, Ef, M2, M4. destruct Hf as [<-|[<-|[]]]; destruct a; reflexivity. }
  pose proof (jpaths_rows complex_ops complex_ops_ok sgnR t _ _ _ _ _ _ _ _ _ Hr [3%nat] rows Rx Hchk) as E. change (Z.to_nat 100) with 100%nat in E. rewrite <- Ex in E.
  destruct (new_jtfs_bank _ _ _ _ (ltac:(cbn; lia) : 0 <= jp_J_fr p) H) as (low & pos & neg & Eb & Hx & Hj & _).
  match type of E with _ = Ok (?a, ?b) => set (p0 := a) in E; set (S := b) in E end.
  assert (HS : S <> []).
  { set (e0 := entry_of complex_ops sgnR (Z.to_nat (f_N (t_phi_fr t))) 1 NoAvg [-1] [] (List.length (s_psi1 (t_base t))) ((l + 100 + r) / p2 4)
                 (time1 complex_ops (s_phi (t_base t)) (s_psi1 (t_base t)) (l + 100 + r) 4 (is_local_avg a)) (0%nat, low)).
    assert (He : In e0 (entries complex_ops sgnR t 100 l r 4 a (Z.to_nat (f_N (t_phi_fr t))) 1 NoAvg)).
    { unfold entries. apply in_app_iff. left. apply in_map, In_enumerate. rewrite Eb. unfold nonneg. cbn [List.filter]. now rewrite Hx, sgnR_0. }
    pose proof (entries_labels complex_ops complex_ops_ok sgnR t _ _ _ _ _ _ _ _ _ Hr e0 He) as HL.
    assert (Hq : exists q, In q S); [|destruct Hq as [q Hq]; intros E0; rewrite E0 in Hq; destruct Hq].
    unfold S. destruct (out_paths complex_ops t 100 l r 4 a 1 NoAvg [3%nat] rows e0) as [|q q1] eqn:Eq.
    - exfalso. unfold out_paths in Eq. destruct (String.eqb _ _); [discriminate|]. apply map_eq_nil in Eq. destruct (nlabels 1 NoAvg (e_q e0)); [lia|discriminate].
    - exists q. apply in_flat_map. exists e0. split; [exact He|]. rewrite Eq. now left. }
  assert (RU : rows_ok [3; 1]%nat 256 ramps) by (split; [reflexivity|]; repeat constructor).
  assert (RU' : rows_ok [3; 1]%nat 256 (map (rotate (2 * 2 ^ 4)) ramps)) by (split; [reflexivity|]; repeat constructor; apply rotate_length).
  exists t, (p0, S). split; [exact Hc|]. split; [exact Hm|]. split; [rewrite Et; exact ENp|]. split; [exact Hw|]. split; [exact E|]. split; [exact HS|].
  split; [now apply of_rows_wf|]. split; [reflexivity|]. split; [reflexivity|]. split; [now apply of_rows_wf|]. split; [reflexivity|]. split; [reflexivity|].
  intros i Hi. unfold U, U'. rewrite !signal_of by assumption. apply nth_map_in. exact Hi.
Qed.
