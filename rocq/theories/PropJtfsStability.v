(** Property C88: TimeFrequencyScattering is homogeneous.
    Property C89: Lipschitz stability of TimeFrequencyScattering in the supremum norm, with an explicit constant. *)
From Coq Require Import String Reals ZArith QArith List Bool Arith Lia Lra.
From Coquelicot Require Import Complex.
From Verif Require Import Base BaseProofs NdArray Backend Core1d Utils1d Utils1dProofs Frontend1d Frontend1dProofs NdProofs StackProofs Rows1d FrontRows Mats
  Factory1d FactoryProofs ComplexOps FilterBank1d FilterBank1dProofs Construct1d Shape1d PropFilters1d PropShapes1d Dft Conv1d Value1d Tabulated1d PropNumerics1d Invariance1d Stability1d
  Jtfs JtfsFront JtfsProofs JtfsKeys JtfsRows JtfsFmt JtfsFull JtfsConstruct JtfsMeta JtfsTotal PropJtfs JtfsReady JtfsRun SpecJtfsValue JtfsValue JtfsCoef PropJtfsValues
  PropJtfsRuns JtfsParts PropJtfsBatch JtfsStability.
Import ListNotations.
Local Open Scope nat_scope.
Local Open Scope res_scope.

(** A successful call, and the parts in which every other batch is transformed by the same object. *)
Lemma run_all_parts support p out t N batch x p0 S ls a lsf af :
  jconstructed support p out t N -> modes t ls a lsf af -> nd_wf x -> nd_shape x = batch ++ [Z.to_nat N] -> 0 < prod batch -> jpaths np sgnR t x = Ok (p0, S) ->
  exists l r mx rows, jready sgnR t (Z.to_nat N) l r mx ls a (bins t) lsf af /\ padded_length (t_base t) N = l + Z.to_nat N + r /\
    (t_format t = "joint"%string \/ t_format t = "time"%string) /\ nd_dtype x = Real /\ x = of_rows Real batch (Z.to_nat N) rows /\ rows_ok batch (Z.to_nat N) rows /\
    forall batch' rows', rows_ok batch' (Z.to_nat N) rows' ->
      jpaths np sgnR t (of_rows Real batch' (Z.to_nat N) rows') =
      Ok (mk_path (coef_of batch' rows' (part0 t (Z.to_nat N) l r ls a)) [] [], map (path_of batch' rows') (all_parts t (Z.to_nat N) l r ls a (bins t) lsf af)).
Proof.
  intros Hc Hm Hw Hsh Hb HS. pose proof Hc as (Hsup & H & EN & HN & HJ & HJf).
  destruct (run_entries _ _ _ _ _ _ _ _ _ _ _ _ _ Hc Hm Hw Hsh Hb HS) as (l & r & mx & rows & Hr & Ex & Rx & _ & _).
  destruct (run_jready _ _ _ _ _ _ _ _ _ Hsup H EN HN HJ HJf Hw Hsh Hb HS) as (Hd & Hchk & _).
  exists l, r, mx, rows. split; [exact Hr|]. split; [|split; [|split; [exact Hd|split; [exact Ex|split; [exact Rx|]]]]].
  - unfold padded_length. rewrite (jr_left _ _ _ _ _ _ _ _ _ _ _ Hr), (jr_right _ _ _ _ _ _ _ _ _ _ _ Hr). lia.
  - pose proof Hchk as Hc'. unfold jcheck_runtime_args in Hc'. inv_bind Hc'. inv_bind Hc'.
    destruct (String.eqb_spec (t_format t) "time"); [now right|]. destruct (String.eqb_spec (t_format t) "joint"); [now left|discriminate].
  - intros batch' rows' R'. eapply run_parts; eassumption.
Qed.
Lemma parts_Forall2 {A} (Q : A -> A -> Prop) (f g : part -> A) ds : (forall d, In d ds -> Q (f d) (g d)) -> Forall2 Q (map f ds) (map g ds).
Proof. intros H. induction ds as [|d ds IH]; cbn [map]; constructor; [apply H; now left|]. apply IH. intros; apply H; now right. Qed.

(** ** C88 *)
Definition scaled (k : R) (q q' : nd C) : Prop := nd_shape q' = nd_shape q /\ nd_data q' = map (Cmult (RtoC k)) (nd_data q).

Theorem C88_homogeneous : forall support p out t N batch x p0 S ls a lsf af (k : R),
  jconstructed support p out t N -> modes t ls a lsf af -> nd_wf x -> nd_shape x = batch ++ [Z.to_nat N] -> 0 < prod batch -> jpaths np sgnR t x = Ok (p0, S) ->
  exists p0' S', jpaths np sgnR t (mk_nd Real (nd_shape x) (map (Cmult (RtoC k)) (nd_data x))) = Ok (p0', S') /\
    scaled k (p_coef p0) (p_coef p0') /\ Forall2 (fun q q' => erase q' = erase q /\ scaled (Rabs k) (q_coef q) (q_coef q')) S S'.
Proof.
  intros support p out t N batch x p0 S ls a lsf af k Hc Hm Hw Hsh Hb HS.
  destruct (run_all_parts _ _ _ _ _ _ _ _ _ _ _ _ _ Hc Hm Hw Hsh Hb HS) as (l & r & mx & rows & Hr & _ & Hf & _ & Ex & R & Hrun).
  pose proof (Hrun batch rows R) as E. rewrite <- Ex, HS in E. injection E as -> ->. cbn [p_coef].
  set (rows' := map (map (Cmult (RtoC k))) rows).
  assert (R' : rows_ok batch (Z.to_nat N) rows').
  { destruct R as [R1 R2]. split; [unfold rows'; now rewrite map_length|]. apply Forall_map. eapply Forall_impl; [|exact R2]. intros z Hz. now rewrite map_length. }
  assert (Ex' : mk_nd Real (nd_shape x) (map (Cmult (RtoC k)) (nd_data x)) = of_rows Real batch (Z.to_nat N) rows').
  { rewrite Ex. unfold of_rows, rows'. cbn [nd_shape nd_data]. now rewrite concat_map. }
  rewrite Ex'. eexists _, _. split; [apply (Hrun batch rows' R')|]. cbn [p_coef].
  assert (G : forall d k', (forall row, List.length row = Z.to_nat N -> concat (d_gen d (map (Cmult (RtoC k)) row)) = map (Cmult (RtoC k')) (concat (d_gen d row))) ->
    scaled k' (coef_of batch rows d) (coef_of batch rows' d)).
  { intros d k' Hd. split; [now rewrite !coef_shape|]. unfold coef_of, rows'. cbn [of_rows nd_data].
    destruct R as [_ R2]. clear - Hd R2. induction R2 as [|row rows Hrow F IH]; [reflexivity|]. cbn [map concat]. rewrite !concat_app, map_app, IH, Hd by exact Hrow. reflexivity. }
  split; [apply G; intros row Hrow; eapply part0_scal; eassumption|].
  apply parts_Forall2. intros d Hd. split; [reflexivity|]. apply G. intros row Hrow. eapply part_scal; eassumption.
Qed.
Print Assumptions C88_homogeneous.

(** Output type 'array': the array is the stack of the parts. *)
Lemma run_array support p out t N batch x y ls a lsf af :
  jconstructed support p out t N -> modes t ls a lsf af -> nd_wf x -> nd_shape x = batch ++ [Z.to_nat N] -> 0 < prod batch ->
  jtfs_scattering np sgnR t x = Ok (JArray y) ->
  exists l r mx rows all suf, jready sgnR t (Z.to_nat N) l r mx ls a (bins t) lsf af /\ padded_length (t_base t) N = l + Z.to_nat N + r /\
    (t_format t = "joint"%string \/ t_format t = "time"%string) /\
    (forall d, In d all -> In d (all_parts t (Z.to_nat N) l r ls a (bins t) lsf af) \/ d = part0 t (Z.to_nat N) l r ls a) /\ Forall (part_ok (Z.to_nat N)) all /\
    Forall (fun d => d_suf d = suf) all /\
    x = of_rows Real batch (Z.to_nat N) rows /\ rows_ok batch (Z.to_nat N) rows /\
    forall rows', rows_ok batch (Z.to_nat N) rows' ->
      exists y', jtfs_scattering np sgnR t (of_rows Real batch (Z.to_nat N) rows') = Ok (JArray y') /\ nd_wf y' /\ nd_dtype y' = nd_dtype y /\
        nd_shape y' = batch ++ List.length all :: suf /\
        forall i, i < prod batch -> signal (List.length all * prod suf) i y' = concat (map (fun d => concat (d_gen d (nth i rows' []))) all).
Proof.
  intros Hc Hm Hw Hsh Hb Hy. pose proof Hy as Hy0. unfold jtfs_scattering in Hy. destruct (jpaths np sgnR t x) as [[p0 S]|] eqn:HS; [|discriminate].
  destruct (run_all_parts _ _ _ _ _ _ _ _ _ _ _ _ _ Hc Hm Hw Hsh Hb HS) as (l & r & mx & rows & Hr & ENp & Hf & Hd & Ex & R & Hrun).
  set (d0 := part0 t (Z.to_nat N) l r ls a) in *. set (ds := all_parts t (Z.to_nat N) l r ls a (bins t) lsf af) in *.
  set (joint := String.eqb (t_format t) "joint"). set (all := if joint then ds else d0 :: ds).
  assert (H0 : part_ok (Z.to_nat N) d0) by (eapply part0_ok; exact Hr). assert (Hds : Forall (part_ok (Z.to_nat N)) ds) by (eapply all_parts_ok; eassumption).
  assert (Hk : Forall (fun d => List.length (d_suf d) = if joint then 2 else 1) ds) by (apply Forall_forall; intros d Hin; eapply parts_suf; eassumption).
  assert (Hall : Forall (part_ok (Z.to_nat N)) all) by (unfold all; destruct joint; [exact Hds|now constructor]).
  assert (Kall : Forall (fun d => List.length (d_suf d) = if joint then 2 else 1) all).
  { unfold all. destruct joint; [exact Hk|]. constructor; [reflexivity|exact Hk]. }
  set (dim := (- Z.of_nat (1 + if joint then 2 else 1))%Z).
  assert (Hcont : forall batch' rows', rows_ok batch' (Z.to_nat N) rows' ->
    jtfs_scattering np sgnR t (of_rows Real batch' (Z.to_nat N) rows') =
    (if String.eqb (s_out_type (t_base t)) "array" then arr <- stack (map (coef_of batch' rows') all) dim ;; Ok (JArray arr)
     else jcontainer np t (mk_path (coef_of batch' rows' d0) [] []) (map (path_of batch' rows') ds))).
  { intros batch' rows' R'. unfold jtfs_scattering. rewrite (Hrun batch' rows' R'). cbn [bind]. unfold jcontainer.
    destruct (String.eqb (s_out_type (t_base t)) "array"); [|reflexivity]. fold joint. unfold all, dim. rewrite map_map.
    cbn [p_coef numpy_backend be_stack]. destruct joint; reflexivity. }
  rewrite Ex, (Hcont batch rows R) in Hy0.
  destruct (String.eqb (s_out_type (t_base t)) "array") eqn:Eo.
  2:{ unfold jcontainer in Hy0. rewrite Eo in Hy0. destruct (String.eqb _ "dict"); discriminate. }
  destruct (stack (map (coef_of batch rows) all) dim) as [z|] eqn:Ez; [|discriminate]. cbn [bind] in Hy0. injection Hy0 as ->.
  destruct (stack_parts_inv batch rows all dim y _ Kall eq_refl Ez) as (Hne & suf & Hsuf).
  assert (Hdim : dim = (- Z.of_nat (1 + List.length suf))%Z).
  { unfold dim. destruct all as [|d all']; [congruence|]. apply Forall_inv in Kall, Hsuf. now rewrite <- Hsuf, Kall. }
  exists l, r, mx, rows, all, suf. split; [exact Hr|]. split; [exact ENp|]. split; [exact Hf|].
  split; [unfold all; destruct joint; [now left|]; intros d [E|Hin]; [now right|now left]|]. split; [exact Hall|]. split; [exact Hsuf|]. split; [exact Ex|]. split; [exact R|].
  intros rows' R'. rewrite (Hcont batch rows' R'). destruct (stack_parts _ batch rows' all suf dim Hall R' Hne Hsuf Hdim) as (y' & Ey & Wy & Sy & Vy).
  rewrite Ey. cbn [bind]. exists y'. split; [reflexivity|]. split; [exact Wy|]. split; [|split; [exact Sy|exact Vy]].
  assert (T : forall rw u, stack (map (coef_of batch rw) all) dim = Ok u -> nd_dtype u = match all with d :: _ => nd_dtype (coef_of batch rw d) | [] => Real end).
  { intros rw u Eu. destruct all as [|d all']; [congruence|]. cbn [map] in Eu. unfold stack in Eu. cbv zeta in Eu.
    match type of Eu with (if ?b then _ else _) = _ => destruct b; [discriminate|] end. unfold stack_at in Eu. destruct (Nat.ltb _ _) in Eu; [discriminate|].
    match type of Eu with (if ?b then _ else _) = _ => destruct b; [|discriminate] end. injection Eu as <-. reflexivity. }
  rewrite (T _ _ Ey), (T _ _ Ez). destruct all; reflexivity.
Qed.
(** Multiplying by a non-negative number (with format 'time' the array contains the zeroth order, which keeps the sign). *)
Theorem C88_array : forall support p out t N batch x y ls a lsf af (k : R),
  jconstructed support p out t N -> modes t ls a lsf af -> nd_wf x -> nd_shape x = batch ++ [Z.to_nat N] -> 0 < prod batch -> (0 <= k)%R ->
  jtfs_scattering np sgnR t x = Ok (JArray y) ->
  exists y', jtfs_scattering np sgnR t (mk_nd Real (nd_shape x) (map (Cmult (RtoC k)) (nd_data x))) = Ok (JArray y') /\ scaled k y y'.
Proof.
  intros support p out t N batch x y ls a lsf af k Hc Hm Hw Hsh Hb Hk Hy.
  destruct (run_array _ _ _ _ _ _ _ _ _ _ _ _ Hc Hm Hw Hsh Hb Hy) as (l & r & mx & rows & all & suf & Hr & _ & Hf & Hall & Hok & Hsuf & Ex & R & Hrun).
  set (rows' := map (map (Cmult (RtoC k))) rows).
  assert (R' : rows_ok batch (Z.to_nat N) rows').
  { destruct R as [R1 R2]. split; [unfold rows'; now rewrite map_length|]. apply Forall_map. eapply Forall_impl; [|exact R2]. intros z Hz. now rewrite map_length. }
  assert (Ex' : mk_nd Real (nd_shape x) (map (Cmult (RtoC k)) (nd_data x)) = of_rows Real batch (Z.to_nat N) rows').
  { rewrite Ex. unfold of_rows, rows'. cbn [nd_shape nd_data]. now rewrite concat_map. }
  rewrite Ex'. destruct (Hrun rows' R') as (y' & Ey' & Wy' & _ & Sy' & Vy'). destruct (Hrun rows R) as (y0 & Ey & Wy & _ & Sy & Vy).
  rewrite <- Ex, Hy in Ey. injection Ey as <-. exists y'. split; [exact Ey'|]. split; [congruence|].
  set (L := List.length all * prod suf) in *.
  assert (SL : forall (z : nd C), nd_wf z -> nd_shape z = batch ++ List.length all :: suf -> List.length (nd_data z) = prod batch * L).
  { intros z Hz Ez. unfold nd_wf in Hz. rewrite Hz, Ez, prod_app. reflexivity. }
  rewrite <- (firstn_all (nd_data y')), <- (firstn_all (map _ (nd_data y))), map_length, (SL _ Wy' Sy'), (SL _ Wy Sy).
  apply blocks_eq. intros i Hi. rewrite skipn_map, firstn_map.
  change (signal L i y' = map (Cmult (RtoC k)) (signal L i y)). rewrite (Vy i Hi), (Vy' i Hi).
  pose proof (signal_row _ _ _ _ R Hi) as Hrow. unfold rows'. rewrite (nth_map_any _ _ _ _ []) by (rewrite (proj1 R); exact Hi).
  rewrite concat_map, map_map. f_equal. apply map_ext_in. intros d Hd. destruct (Hall d Hd) as [Hin| ->].
  - rewrite <- (Rabs_pos_eq k Hk) at 2. eapply part_scal; eassumption.
  - eapply part0_scal; eassumption.
Qed.
Print Assumptions C88_array.

(** ** C89 *)
Section Spec.
Variables (t : jtfs (nd C) R) (N : Z) (ls : Z) (a : avg) (lsf : Z) (af : avg).
Notation b := (t_base t).
Notation Np := (padded_length b N).
(** The l1 norm of the impulse response of a filter, at the resolution of its k-th level. *)
Definition norm_at (f : Core1d.filter (nd C) R) (k : Z) : R := l1 (idft (lev f k)).
(** Resolution of the first modulus. *)
Definition first_rate (f1 : Core1d.filter (nd C) R) : Z := match a with Local => Z.min (f_j f1) ls | _ => f_j f1 end.
(** The gain from the signal to the rows that are filtered along frequency: the worst row. *)
Definition gain_order1 : R := max_of (fun f1 => norm_at f1 0 * norm_at (s_phi b) (first_rate f1))%R (s_psi1 b).
Definition gain_order2 (f2 : Core1d.filter (nd C) R) : R :=
  max_of (fun f1 => norm_at f1 0 * norm_at f2 (first_rate f1))%R (List.filter (fun f1 => (f_j f1 <? f_j f2)%Z) (s_psi1 b)).
(** Then the frequential filter and the averages over time and over frequency; the rows of order 1 are already averaged over time
    unless T='global', the coefficients of spin 0 are already averaged over frequency. *)
Definition gain_fr (psi : Core1d.filter (nd C) R) : R := (norm_at psi 0 *
  (if (sgnR (f_xi psi) =? 0)%Z then 1
   else match af with Local => norm_at (t_phi_fr t) (Z.min (f_j psi) lsf) | Global => INR (bins t / 2 ^ Z.to_nat (f_j psi)) | NoAvg => 1 end))%R.
Definition jtfs_gain (key : list nat) : R :=
  match key with
  | [nf] =>
    match nth_error (List.filter (fun f => (0 <=? sgnR (f_xi f))%Z) (t_psis_fr t)) nf with
    | Some psi => (gain_order1 * gain_fr psi * match a with Global => INR (Np / 2 ^ Z.to_nat ls) | _ => 1 end)%R
    | None => 0%R
    end
  | [n2; nf] =>
    match nth_error (s_psi2 b) n2, nth_error (t_psis_fr t) nf with
    | Some f2, Some psi =>
      (gain_order2 f2 * gain_fr psi *
       match a with Local => norm_at (s_phi b) (f_j f2) | Global => INR (Np / 2 ^ Z.to_nat (f_j f2)) | NoAvg => 1 end)%R
    | _, _ => 0%R
    end
  | _ => 0%R
  end.
Definition jtfs_gain0 : R := match a with Local => norm_at (s_phi b) 0 | Global => INR Np | NoAvg => 1%R end.
End Spec.

Lemma gain_part t n l r N ls a lsf af key : padded_length (t_base t) N = l + n + r ->
  part_gain t n l r ls a (bins t) lsf af key = jtfs_gain t N ls a lsf af key.
Proof.
  intros E. unfold part_gain, jtfs_gain. rewrite E.
  assert (G : forall f psi j2 c, (f * l1 (idft (lev psi 0)) * time_gain (s_phi (t_base t)) a j2 c * freq_gain (t_phi_fr t) (bins t) af (sgnR (f_xi psi)) (fr_rate lsf af psi) =
    f * gain_fr t lsf af psi * time_gain (s_phi (t_base t)) a j2 c)%R).
  { intros f psi j2 c. unfold gain_fr, freq_gain, norm_at, fr_rate. destruct (_ =? 0)%Z; [ring|]. destruct af; ring. }
  destruct key as [|nf [|nf' [|? ?]]]; try reflexivity.
  - destruct (nth_error _ nf) as [psi|]; [|reflexivity]. rewrite G. unfold time_gain. destruct a; reflexivity.
  - destruct (nth_error _ nf) as [f2|]; [|reflexivity]. destruct (nth_error _ nf') as [psi|]; [|reflexivity]. rewrite G. unfold time_gain. destruct a; reflexivity.
Qed.
(** [y] is another batch of real signals of the same shape; [D] bounds the distance between the i-th signals.  In format 'time' the
    first index of a path is its row, n1; the other indices are those of format 'joint'. *)
Theorem C89_lipschitz : forall support p out t N batch x y p0 S ls a lsf af,
  jconstructed support p out t N -> modes t ls a lsf af -> nd_wf x -> nd_shape x = batch ++ [Z.to_nat N] -> 0 < prod batch -> jpaths np sgnR t x = Ok (p0, S) ->
  nd_wf y -> nd_dtype y = Real -> nd_shape y = nd_shape x ->
  exists p0' S', jpaths np sgnR t y = Ok (p0', S') /\
    let distance i B (q q' : nd C) := exists suf, nd_shape q = batch ++ suf /\ nd_shape q' = batch ++ suf /\
      forall u, u < prod suf -> (Cmod (at_ (signal (prod suf) i q) u - at_ (signal (prod suf) i q') u)%C <= B)%R in
    forall i D, i < prod batch ->
      (forall u, u < Z.to_nat N -> (Cmod (at_ (signal (Z.to_nat N) i x) u - at_ (signal (Z.to_nat N) i y) u)%C <= D)%R) ->
      distance i (D * jtfs_gain0 t N a)%R (p_coef p0) (p_coef p0') /\
      Forall2 (fun q q' => erase q' = erase q /\
        distance i (D * jtfs_gain t N ls a lsf af (if String.eqb (t_format t) "joint" then q_n q else tl (q_n q)))%R (q_coef q) (q_coef q')) S S'.
Proof.
  intros support p out t N batch x y p0 S ls a lsf af Hc Hm Hw Hsh Hb HS Hwy Hdy Hsy. pose proof Hc as (_ & _ & _ & HN & _).
  destruct (run_all_parts _ _ _ _ _ _ _ _ _ _ _ _ _ Hc Hm Hw Hsh Hb HS) as (l & r & mx & rows & Hr & ENp & Hf & _ & Ex & R & Hrun).
  rewrite Hsh in Hsy. destruct (of_rows_intro y batch (Z.to_nat N) Hwy Hsy) as (rows' & Ey & R'). rewrite Hdy in Ey.
  pose proof (Hrun batch rows R) as E. rewrite <- Ex, HS in E. injection E as -> ->. cbn [p_coef].
  pose proof (Hrun batch rows' R') as Hy. rewrite <- Ey in Hy. eexists _, _. split; [exact Hy|]. cbv zeta. intros i D Hi HD. cbn [p_coef].
  assert (Exi : signal (Z.to_nat N) i x = nth i rows []) by (rewrite Ex; now apply signal_of with (pre := batch)).
  assert (Eyi : signal (Z.to_nat N) i y = nth i rows' []) by (rewrite Ey; now apply signal_of with (pre := batch)).
  pose proof (signal_row _ _ _ _ R Hi) as Lx. pose proof (signal_row _ _ _ _ R' Hi) as Ly. rewrite Exi, Eyi in HD.
  assert (HD0 : (0 <= D)%R) by (eapply Rle_trans; [apply Cmod_ge_0|apply (HD 0); lia]).
  assert (Hcl : close D (nth i rows []) (nth i rows' [])) by (split; [congruence|]; rewrite Lx; exact HD).
  split.
  - pose proof (part0_ok t (Z.to_nat N) l r mx ls a (bins t) lsf af Hr) as H0. exists (d_suf (part0 t (Z.to_nat N) l r ls a)). rewrite !coef_shape.
    split; [reflexivity|]. split; [reflexivity|]. intros u Hu. rewrite !(coef_signal (Z.to_nat N)) by assumption.
    assert (E0 : jtfs_gain0 t N a = zeroth_gain t (Z.to_nat N) l r a) by (unfold jtfs_gain0, zeroth_gain; rewrite ENp; reflexivity). rewrite E0.
    eapply part0_close; eassumption.
  - pose proof (all_parts_ok t (Z.to_nat N) l r mx ls a (bins t) lsf af Hr Hf) as Hok. rewrite Forall_forall in Hok.
    apply parts_Forall2. intros d Hd. split; [reflexivity|]. specialize (Hok d Hd). exists (d_suf d).
    change (q_coef (path_of batch rows d)) with (coef_of batch rows d). change (q_coef (path_of batch rows' d)) with (coef_of batch rows' d). rewrite !coef_shape.
    split; [reflexivity|]. split; [reflexivity|]. intros u Hu. rewrite !(coef_signal (Z.to_nat N)) by assumption.
    change (q_n (path_of batch rows d)) with (q_n (d_q d)). rewrite <- (gain_part t (Z.to_nat N) l r) by exact ENp.
    exact (part_close t (Z.to_nat N) l r mx ls a (bins t) lsf af Hr d D _ _ u Hf Hd Lx HD0 Hcl Hu).
Qed.
Print Assumptions C89_lipschitz.

(** Two batches of three signals, for every length. *)
Example C88_C89_instance : forall N format, (4 <= N)%Z -> In format ["joint"; "time"]%string ->
  let x := mk_nd Real [3; Z.to_nat N] (map (fun i => RtoC (INR i)) (seq 0 (3 * Z.to_nat N))) in
  exists t p0 S ls a lsf af t' ls' a' lsf' af' y, jconstructed (fun _ _ => 1%Z) (default_jparams 2 N 8 1 TNone format) "list" t N /\ modes t ls a lsf af /\
    nd_wf x /\ jpaths np sgnR t x = Ok (p0, S) /\ S <> [] /\
    jconstructed (fun _ _ => 1%Z) (default_jparams 2 N 8 1 TNone format) "array" t' N /\ modes t' ls' a' lsf' af' /\ jtfs_scattering np sgnR t' x = Ok (JArray y).
Proof.
  intros N format HN Hf x. destruct (C87_instance N format HN Hf) as (t & p0 & S & t' & y & Ht & HS & Hne & Ht' & Hy & Hw).
  assert (M : forall out t p0 S, jconstructed (fun _ _ => 1%Z) (default_jparams 2 N 8 1 TNone format) out t N -> jpaths np sgnR t x = Ok (p0, S) -> exists ls a lsf af, modes t ls a lsf af).
  { intros out u q0 Q Hu HQ. destruct Hu as (Hsup & H & EN & HN' & HJ & HJf).
    destruct (run_jready _ _ _ _ _ _ _ _ _ Hsup H EN HN' HJ HJf Hw (eq_refl : nd_shape x = [3] ++ [Z.to_nat N]) ltac:(cbn; lia) HQ) as (_ & _ & l & r & mx & ls & a & Nfr & lsf & af & Hr).
    exists ls, a, lsf, af. split; [|split; [|split]]; [eapply jr_stride|eapply jr_avg|eapply jr_stride_fr|eapply jr_avg_fr]; exact Hr. }
  destruct (M _ _ _ _ Ht HS) as (ls & a & lsf & af & Hm).
  pose proof Hy as Hy'. fold x in Hy'. unfold jtfs_scattering in Hy'. destruct (jpaths np sgnR t' x) as [[p0' S']|] eqn:HS'; [|discriminate]. clear Hy'.
  destruct (M _ _ _ _ Ht' HS') as (ls' & a' & lsf' & af' & Hm').
  exists t, p0, S, ls, a, lsf, af, t', ls', a', lsf', af', y. auto 12.
Qed.
