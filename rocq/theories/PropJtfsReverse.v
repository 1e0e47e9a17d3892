(** Property C115: joint time-frequency scattering of a signal read backwards, at the zeroth and first order. *)
From Coq Require Import String Reals ZArith QArith List Bool Arith Lia.
From Coquelicot Require Import Complex.
From Verif Require Import Base BaseProofs NdArray Backend Core1d Utils1d Utils1dProofs Frontend1d Frontend1dProofs NdProofs Rows1d FrontRows Mats
  Factory1d FactoryProofs ComplexOps FilterBank1d FilterBank1dProofs Construct1d Shape1d PropFilters1d PropShapes1d Dft Conv1d Value1d Tabulated1d PropNumerics1d Stability1d
  Jtfs JtfsFront JtfsProofs JtfsKeys JtfsRows JtfsFmt JtfsFull JtfsConstruct JtfsMeta JtfsTotal PropJtfs JtfsReady JtfsRun SpecJtfsValue JtfsValue JtfsCoef
  PropInvariance1d PropStability1d PropJtfsValues PropJtfsRuns JtfsShift PropJtfsShift JtfsReverse.
Import ListNotations.
Local Open Scope Z_scope.
Local Open Scope res_scope.

(** ** C115 *)
(** [reversed] reads a signal backwards around its first sample: sample [n] becomes sample [-n mod length].  [U] is a padded batch of
    real signals, [U'] the same with every signal read backwards.  First-order paths are those with a single time scale. *)
Theorem C115_reversal : forall support p out t N batch x v ls a lsf af B (U U' : nd C),
  jconstructed support p out t N -> modes t ls a lsf af ->
  nd_wf x -> nd_shape x = batch ++ [Z.to_nat N] -> (0 < prod batch)%nat -> jpaths np sgnR t x = Ok v ->
  let Np := padded_length (t_base t) N in
  nd_wf U -> nd_dtype U = Real -> nd_shape U = [B; 1; Np]%nat -> nd_wf U' -> nd_dtype U' = Real -> nd_shape U' = [B; 1; Np]%nat ->
  (forall k, Im (at_ (nd_data U) k) = 0%R) ->
  (forall i, (i < B)%nat -> signal Np i U' = reversed (signal Np i U)) ->
  exists p0 S p0' S', paths_of_padded t ls a lsf af U = Ok (p0, S) /\ paths_of_padded t ls a lsf af U' = Ok (p0', S') /\
    map jlabels S' = map jlabels S /\
    (exists L, nd_shape (p_coef p0) = [B; 1; L]%nat /\ nd_shape (p_coef p0') = [B; 1; L]%nat /\
       match a with Local => Z.of_nat Np = Z.of_nat L * 2 ^ ls | Global => L = 1%nat | NoAvg => L = Np end /\
       forall i, (i < B)%nat -> signal L i (p_coef p0') = reversed (signal L i (p_coef p0))) /\
    forall k q q', nth_error S k = Some q -> nth_error S' k = Some q' -> List.length (q_j q) = 1%nat ->
      exists R L, nd_shape (q_coef q) = [B; 1; R; L]%nat /\ nd_shape (q_coef q') = [B; 1; R; L]%nat /\
        match a with Global => L = 1%nat | _ => Z.of_nat Np = Z.of_nat L * 2 ^ ls end /\
        forall i r, (i < B)%nat -> (r < R)%nat -> signal L (i * R + r) (q_coef q') = reversed (signal L (i * R + r) (q_coef q)).
Proof.
  intros support p out t N batch x [v0 vS] ls a lsf af B U U' Hc Hm Hw Hsh Hb HS Np HwU HdU HsU HwU' HdU' HsU' HR Hrot.
  destruct (run_entries _ _ _ _ _ _ _ _ _ _ _ _ _ Hc Hm Hw Hsh Hb HS) as (l & r & mx & rows0 & Hr & _ & _ & _ & _).
  assert (ENp : Np = (l + Z.to_nat N + r)%nat).
  { unfold Np, padded_length. rewrite (jr_left _ _ _ _ _ _ _ _ _ _ _ Hr), (jr_right _ _ _ _ _ _ _ _ _ _ _ Hr). destruct Hc as (_ & _ & _ & HN & _). lia. }
  clearbody Np. subst Np.
  assert (Hfmt : t_format t = "joint"%string \/ t_format t = "time"%string).
  { unfold jpaths in HS. inv_bind HS. unfold jcheck_runtime_args in E. inv_bind E. inv_bind E.
    destruct (String.eqb_spec (t_format t) "time"); [now right|]. destruct (String.eqb_spec (t_format t) "joint"); [now left|discriminate]. }
  clear HS. set (n := Z.to_nat N) in *. set (Nn := (l + n + r)%nat) in *.
  pose proof (jr_time _ _ _ _ _ _ _ _ _ _ _ Hr) as Ht. pose proof (jt_ls _ _ _ _ _ _ Ht) as Hls. pose proof (jt_div _ _ _ _ _ _ Ht) as Hdiv.
  pose proof (jt_N _ _ _ _ _ _ Ht) as HN0. fold n Nn in Hdiv, HN0.
  destruct (of_rows_intro U [B; 1]%nat Nn HwU HsU) as (rows & EU & RU). rewrite HdU in EU.
  destruct (of_rows_intro U' [B; 1]%nat Nn HwU' HsU') as (rows' & EU' & RU'). rewrite HdU' in EU'.
  pose proof (core_rows t n l r mx ls a (bins t) lsf af Hr B rows Hfmt RU) as C1.
  pose proof (core_rows t n l r mx ls a (bins t) lsf af Hr B rows' Hfmt RU') as C2.
  fold Nn in C1, C2. rewrite <- EU in C1. rewrite <- EU' in C2.
  assert (LB : List.length rows = B) by (destruct RU as [E _]; cbn in E; lia).
  assert (LB' : List.length rows' = B) by (destruct RU' as [E _]; cbn in E; lia).
  assert (Hrow : forall i, (i < B)%nat -> List.length (nth i rows []) = Nn).
  { intros i Hi. destruct RU as [_ F]. rewrite Forall_forall in F. apply F, nth_In. lia. }
  assert (Hrot' : forall i, (i < B)%nat -> nth i rows' [] = reversed (nth i rows [])).
  { intros i Hi. specialize (Hrot i Hi). rewrite EU, EU', !signal_of in Hrot by assumption. exact Hrot. }
  assert (Hrr : forall i, (i < B)%nat -> all_real (nth i rows [])).
  { intros i Hi k. destruct (Nat.lt_ge_cases k Nn) as [Hk|Hk].
    - rewrite <- (signal_of Real [B; 1]%nat Nn rows i RU), <- EU. unfold signal, at_. rewrite nth_firstn_lt by exact Hk. rewrite nth_skipn_at. apply HR.
    - rewrite at_over; [reflexivity|]. rewrite Hrow by exact Hi. exact Hk. }
  assert (HF : forall (f : Core1d.filter (nd C) R) k m, stored (t_base t) f -> level_ok f k m -> all_real (lev f k)).
  { destruct Hc as (Hsup & Hnew & EN & HN & HJ & _). apply new_jtfs_inv in Hnew. destruct Hnew as (pb & Qf & q0 & q1 & F & Epb & EB & _).
    intros f k m Hf Hl. eapply (stored_real support pb out (t_base t) N); [|exact Hf|exact Hl].
    split; [exact Hsup|]. split; [exact EB|]. rewrite Epb. cbn [p_shape p_J p_max_order]. repeat split; try assumption; lia. }
  eexists _, _, _, _. split; [exact C1|]. split; [exact C2|]. clear C1 C2.
  split.
  { rewrite !flat_map_concat_map, !concat_map, !map_map. f_equal. apply map_ext. intros e. unfold padded_paths.
    destruct (String.eqb (t_format t) "joint"); [reflexivity|]. rewrite !map_map. reflexivity. }
  assert (ZL : forall k, 0 <= k <= ls -> Z.of_nat Nn = Z.of_nat (Nn / p2 k) * 2 ^ k).
  { intros k Hk. destruct (p2_divide k ls Nn Hk Hdiv) as ([m Em] & _). pose proof (p2_pos k). rewrite Em at 1. rewrite Em, Nat.div_mul, <- p2_Z by lia. lia. }
  split.
  { exists (len0 n l r ls a). cbn [p_coef]. split; [reflexivity|]. split; [reflexivity|].
    split. { unfold len0. destruct a; [apply ZL; lia|reflexivity|reflexivity]. }
    assert (R0 : forall rs, rows_ok [B; 1]%nat Nn rs -> rows_ok [B; 1]%nat (len0 n l r ls a) (map (padded0 t n l r ls a) rs)).
    { intros rs Hrs. eapply rows_ok_map; [|exact Hrs]. intros y Hy. unfold padded0, len0. destruct a; [apply (r_low_length complex_ops complex_ops_ok)|reflexivity|exact Hy]. }
    intros i Hi. rewrite !signal_of by (apply R0; assumption). rewrite !(nth_map_in _ _ _ []) by lia. rewrite Hrot' by exact Hi.
    unfold padded0. fold Nn. set (y := nth i rows []). assert (Hy : List.length y = Nn) by (now apply Hrow). destruct a.
    - assert (Lv : level_ok (s_phi (t_base t)) 0 Nn) by (apply (jt_phi _ _ _ _ _ _ Ht); reflexivity).
      rewrite !(r_low_spec (s_phi (t_base t)) 0 ls Nn) by (rewrite ?reversed_length; assumption).
      apply reversed_lowpass; rewrite ?Hy; try assumption; [apply p2_pos|apply (level_length _ _ _ Lv)|unfold y; now apply Hrr|].
      eapply HF; [left; reflexivity|exact Lv].
    - rewrite !osum_at, csum_reversed by (rewrite Hy; exact HN0). unfold reversed. cbn [List.length seq map]. now rewrite Z.mod_1_r.
    - reflexivity. }
  (* paths *)
  assert (Hpick : forall k q q', nth_error (flat_map (padded_paths t ls a lsf af B rows) (entries complex_ops sgnR t n l r ls a (bins t) lsf af)) k = Some q ->
      nth_error (flat_map (padded_paths t ls a lsf af B rows') (entries complex_ops sgnR t n l r ls a (bins t) lsf af)) k = Some q' ->
      exists e j, In e (entries complex_ops sgnR t n l r ls a (bins t) lsf af) /\
        nth_error (padded_paths t ls a lsf af B rows e) j = Some q /\ nth_error (padded_paths t ls a lsf af B rows' e) j = Some q').
  { generalize (entries complex_ops sgnR t n l r ls a (bins t) lsf af). intros L. induction L as [|e L IH]; intros k q q' H1 H2; [destruct k; discriminate|].
    cbn [flat_map] in H1, H2.
    assert (EL : List.length (padded_paths t ls a lsf af B rows e) = List.length (padded_paths t ls a lsf af B rows' e)).
    { unfold padded_paths. destruct (String.eqb _ _); [reflexivity|]. now rewrite !map_length. }
    destruct (Nat.lt_ge_cases k (List.length (padded_paths t ls a lsf af B rows e))) as [Hk|Hk].
    - rewrite nth_error_app1 in H1 by exact Hk. rewrite nth_error_app1 in H2 by (rewrite <- EL; exact Hk). exists e, k. split; [now left|]. split; assumption.
    - rewrite nth_error_app2 in H1 by exact Hk. rewrite nth_error_app2 in H2 by (rewrite <- EL; exact Hk). rewrite <- EL in H2.
      destruct (IH _ _ _ H1 H2) as (e' & j & He & J1 & J2). exists e', j. split; [now right|]. split; assumption. }
  intros k q q' Hq Hq' Hone. destruct (Hpick _ _ _ Hq Hq') as (e & j & He & J1 & J2). clear Hq Hq' Hpick.
  destruct (restride_same lsf af (e_q e)) as (Rj & _).
  assert (Ej1 : List.length (q_j (e_q e)) = 1%nat).
  { rewrite <- Hone, <- Rj. unfold padded_paths in J1. destruct (String.eqb _ _).
    - destruct j as [|j]; [|destruct j; discriminate]. injection J1 as <-. reflexivity.
    - apply nth_error_map_seq in J1 as [_ ->]. reflexivity. }
  clear Hone.
  assert (Hq : forall i r', (i < B)%nat -> (r' < jrows t lsf af e)%nat ->
    nth r' (emat t ls a lsf af e (nth i rows' [])) [] = reversed (nth r' (emat t ls a lsf af e (nth i rows [])) [])).
  { intros i r' Hi Hr'. rewrite Hrot' by exact Hi.
    apply (emat_reversed t n l r mx ls a (bins t) lsf af Hr HF e (nth i rows [])); [exact He|exact Ej1|now apply Hrow|now apply Hrr|exact Hr']. }
  assert (F2 : match a with Global => jcols ls a e = 1%nat | _ => Z.of_nat Nn = Z.of_nat (jcols ls a e) * 2 ^ ls end).
  { assert (R0 : all_real (repeat (RtoC 0) Nn)).
    { intros i. unfold at_. destruct (Nat.lt_ge_cases i Nn) as [Hi|Hi]; [|rewrite nth_overflow by (now rewrite repeat_length); reflexivity].
      rewrite nth_repeat. reflexivity. }
    destruct (emat_reversed t n l r mx ls a (bins t) lsf af Hr HF e (repeat (RtoC 0) Nn) He Ej1 (repeat_length _ _) R0) as [_ G].
    rewrite G. destruct a; [apply ZL; lia|reflexivity|apply ZL; lia]. }
  pose proof (fun y => emat_ok t n l r mx ls a (bins t) lsf af Hr e y He) as Hok.
  unfold padded_paths in J1, J2. destruct (String.eqb_spec (t_format t) "joint") as [Ej|Ej].
  - destruct j as [|j]; [|destruct j; discriminate]. cbn [nth_error] in J1, J2. injection J1 as <-. injection J2 as <-.
    cbn [set_coef q_coef].
    exists (jrows t lsf af e), (jcols ls a e). split; [reflexivity|]. split; [reflexivity|]. split; [exact F2|].
    intros i r' Hi Hr'. unfold of_mats.
    assert (W : forall rs, List.length rs = B -> rows_ok [B; 1; jrows t lsf af e]%nat (jcols ls a e) (concat (map (emat t ls a lsf af e) rs))).
    { intros rs Hrs. apply mats_rows. split; [now rewrite map_length|]. apply Forall_map, Forall_forall. intros y _. apply Hok. }
    assert (Wc : forall rs, List.length rs = B -> nth (i * jrows t lsf af e + r') (concat (map (emat t ls a lsf af e) rs)) [] = nth r' (emat t ls a lsf af e (nth i rs [])) []).
    { intros rs Hrs. rewrite (nth_concat (jrows t lsf af e)); [|apply Forall_map, Forall_forall; intros y _; apply Hok|now rewrite map_length, Hrs|exact Hr'].
      rewrite (nth_map_in _ _ _ []) by lia. reflexivity. }
    rewrite !signal_of by (apply W; assumption). rewrite !Wc by assumption. now apply Hq.
  - apply nth_error_map_seq in J1 as [I1 ->]. apply nth_error_map_seq in J2 as [_ ->]. rename j into i1.
    assert (Hi1 : (i1 < jrows t lsf af e)%nat).
    { pose proof (entries_labels complex_ops complex_ops_ok sgnR t _ _ _ _ _ _ _ _ _ Hr e He) as HL.
      pose proof (entries_fmt complex_ops complex_ops_ok sgnR t _ _ _ _ _ _ _ _ _ Hr e He) as HFm. pose proof (fo_s _ _ _ _ _ _ _ _ _ _ HFm). pose proof (fo_max _ _ _ _ _ _ _ _ _ _ HFm).
      unfold jrows, ulen. destruct (joint_array _ _); [lia|]. apply Nat.min_glb_lt; [|lia]. unfold nlabels in I1. set (s := estride lsf af (e_q e)) in *.
      pose proof (Z.div_pos (q_n1_max (e_q e)) s). assert ((q_n1_max (e_q e) + s - 1) / s <= 1 + q_n1_max (e_q e) / s)%Z; [|lia].
      replace (1 + q_n1_max (e_q e) / s)%Z with ((q_n1_max (e_q e) + 1 * s) / s)%Z by (rewrite Z.div_add by lia; lia). apply Z.div_le_mono; lia. }
    cbn [set_coef q_coef].
    exists 1%nat, (jcols ls a e). split; [reflexivity|]. split; [reflexivity|]. split; [exact F2|].
    intros i r' Hi Hr'. replace (i * 1 + r')%nat with i by lia.
    assert (W : forall rs, List.length rs = B -> rows_ok [B; 1; 1]%nat (jcols ls a e) (map (fun row => nth i1 (emat t ls a lsf af e row) []) rs)).
    { intros rs Hrs. split; [rewrite map_length, Hrs; cbn; lia|]. apply Forall_map, Forall_forall. intros y _. destruct (Hok y) as [M1 M2].
      rewrite Forall_forall in M2. apply M2, nth_In. rewrite M1. exact Hi1. }
    rewrite !signal_of by (apply W; assumption). rewrite !(nth_map_in _ _ _ []) by lia. now apply Hq.
Qed.
Print Assumptions C115_reversal.

(** The objects and ramps of C110, read backwards: three averaging modes, both formats; among the paths one has a single time scale. *)
Example C115_instance : forall T a format, In (T, a) [(TNone, Local); (TGlobal, Global); (TNum 0, NoAvg)] -> In format ["joint"; "time"]%string ->
  let x := mk_nd Real [3; 100]%nat (map (fun i => RtoC (INR i)) (seq 0 300)) in
  let ramps := map (fun i => map (fun u => RtoC (INR (i + u))) (seq 0 256)) [0; 1; 2]%nat in
  let U := of_rows Real [3; 1]%nat 256 ramps in let U' := of_rows Real [3; 1]%nat 256 (map reversed ramps) in
  exists t v, jconstructed (fun _ _ => 30) (shift_params T format) "list" t 100 /\ modes t 4 a 1 NoAvg /\
    padded_length (t_base t) 100 = 256%nat /\ nd_wf x /\ jpaths np sgnR t x = Ok v /\ snd v <> [] /\
    nd_wf U /\ nd_dtype U = Real /\ nd_shape U = [3; 1; 256]%nat /\ nd_wf U' /\ nd_dtype U' = Real /\ nd_shape U' = [3; 1; 256]%nat /\
    (forall k, Im (at_ (nd_data U) k) = 0%R) /\ (forall i, (i < 3)%nat -> signal 256 i U' = reversed (signal 256 i U)) /\
    at_ (signal 256 0 U') 1 <> at_ (signal 256 0 U) 1.
Proof.
  intros T a format HT Hf x ramps U U'.
  destruct (C110_instance T a format HT Hf) as (t & v & Hc & Hm & ENp & Hw & HS & Hn & W1 & W2 & W3 & _ & _ & _ & _).
  assert (RU : rows_ok [3; 1]%nat 256 ramps) by (split; [reflexivity|]; repeat constructor).
  assert (RU' : rows_ok [3; 1]%nat 256 (map reversed ramps)) by (split; [reflexivity|]; repeat constructor; apply reversed_length).
  exists t, v. do 9 (split; [assumption|]).
  split; [now apply of_rows_wf|]. split; [reflexivity|]. split; [reflexivity|].
  split.
  { assert (LU : List.length (nd_data U) = 768%nat) by exact W1. intros k. unfold at_. destruct (Nat.lt_ge_cases k 768) as [Hk|Hk].
    - assert (G : Forall (fun z : C => Im z = 0%R) (nd_data U)).
      { unfold U, of_rows. cbn [nd_data]. apply Forall_concat. unfold ramps. repeat constructor; apply Forall_map, Forall_forall; reflexivity. }
      rewrite Forall_forall in G. apply G, nth_In. rewrite LU. exact Hk.
    - rewrite nth_overflow; [reflexivity|]. rewrite LU. exact Hk. }
  split.
  { intros i Hi. unfold U, U'. rewrite !signal_of by assumption. apply nth_map_in. exact Hi. }
  unfold U, U'. rewrite !signal_of by assumption. rewrite (nth_map_in _ _ _ []) by (cbn; lia).
  change (nth 0 ramps []) with (map (fun u => RtoC (INR (0 + u))) (seq 0 256)).
  rewrite at_reversed by (rewrite map_length, seq_length; lia). rewrite map_length, seq_length.
  rewrite !at_map_seq by (cbn; lia). intros E. apply RtoC_inj, INR_eq in E. revert E. vm_compute. discriminate.
Qed.
