(** Property C87: TimeFrequencyScattering treats the signals of a batch independently. *)
From Coq Require Import String Reals ZArith QArith List Bool Arith Lia Lra.
From Coquelicot Require Import Complex.
From Verif Require Import Base BaseProofs NdArray Backend Core1d Utils1d Utils1dProofs Frontend1d Frontend1dProofs NdProofs StackProofs Rows1d FrontRows Mats
  Factory1d FactoryProofs ComplexOps FilterBank1d FilterBank1dProofs Construct1d Shape1d PropFilters1d PropShapes1d Dft Conv1d Value1d Tabulated1d PropNumerics1d
  Jtfs JtfsFront JtfsProofs JtfsKeys JtfsRows JtfsFmt JtfsFull JtfsConstruct JtfsMeta JtfsTotal PropJtfs JtfsReady JtfsRun SpecJtfsValue JtfsValue JtfsCoef PropJtfsValues
  PropJtfsRuns JtfsParts.
Import ListNotations.
Local Open Scope nat_scope.
Local Open Scope res_scope.

(** What a successful call computes, signal by signal; the same object then transforms any other batch in the same way. *)
Lemma run_by_parts support p out t N batch x p0 S :
  jconstructed support p out t N -> nd_wf x -> nd_shape x = batch ++ [Z.to_nat N] -> 0 < prod batch -> jpaths np sgnR t x = Ok (p0, S) ->
  exists d0 ds rows, part_ok (Z.to_nat N) d0 /\ Forall (part_ok (Z.to_nat N)) ds /\ d_pre d0 = [] /\
    (t_format t = "joint"%string \/ t_format t = "time"%string) /\
    Forall (fun d => List.length (d_suf d) = if String.eqb (t_format t) "joint" then 2 else 1) ds /\
    nd_dtype x = Real /\ x = of_rows Real batch (Z.to_nat N) rows /\ rows_ok batch (Z.to_nat N) rows /\
    forall batch' rows', rows_ok batch' (Z.to_nat N) rows' ->
      jpaths np sgnR t (of_rows Real batch' (Z.to_nat N) rows') = Ok (mk_path (coef_of batch' rows' d0) [] [], map (path_of batch' rows') ds).
Proof.
  intros (Hsup & H & EN & HN & HJ & HJf) Hw Hsh Hb HS.
  destruct (run_jready _ _ _ _ _ _ _ _ _ Hsup H EN HN HJ HJf Hw Hsh Hb HS) as (Hd & Hchk & l & r & mx & ls & a & Nfr & lsf & af & Hr).
  assert (Hfmt : t_format t = "joint"%string \/ t_format t = "time"%string).
  { pose proof Hchk as Hc. unfold jcheck_runtime_args in Hc. inv_bind Hc. inv_bind Hc.
    destruct (String.eqb_spec (t_format t) "time"); [now right|]. destruct (String.eqb_spec (t_format t) "joint"); [now left|discriminate]. }
  destruct (of_rows_intro x batch (Z.to_nat N) Hw Hsh) as (rows & Ex & Rx). rewrite Hd in Ex.
  exists (part0 t (Z.to_nat N) l r ls a), (all_parts t (Z.to_nat N) l r ls a Nfr lsf af), rows.
  split; [eapply part0_ok; exact Hr|]. split; [eapply all_parts_ok; eassumption|]. split; [reflexivity|]. split; [exact Hfmt|].
  split; [apply Forall_forall; intros d Hin; eapply parts_suf; eassumption|]. split; [exact Hd|]. split; [exact Ex|]. split; [exact Rx|].
  intros batch' rows' R'. eapply run_parts; eassumption.
Qed.

Lemma signal_row N batch (rows : list (list C)) i : rows_ok batch N rows -> i < prod batch -> List.length (nth i rows []) = N.
Proof. intros [R1 R2] Hi. rewrite Forall_forall in R2. apply R2, nth_In. now rewrite R1. Qed.
Lemma single_of (N : nat) (row : list C) : of_rows Real [] N [row] = mk_nd Real [N] row.
Proof. unfold of_rows. cbn [app concat]. now rewrite app_nil_r. Qed.

(** ** C87 *)
(** All the labels of a path are in [erase]. *)
Definition alone (batch : list nat) (i : nat) (q q' : nd C) : Prop :=
  exists suf, nd_shape q = batch ++ suf /\ nd_shape q' = suf /\ nd_data q' = signal (prod suf) i q.
Definition reshaped (batch batch' : list nat) (q q' : nd C) : Prop :=
  nd_data q' = nd_data q /\ exists suf, nd_shape q = batch ++ suf /\ nd_shape q' = batch' ++ suf.

Theorem C87_batch_independence : forall support p out t N batch x p0 S,
  jconstructed support p out t N -> nd_wf x -> nd_shape x = batch ++ [Z.to_nat N] -> 0 < prod batch -> jpaths np sgnR t x = Ok (p0, S) ->
  (forall i, i < prod batch -> exists p0' S', jpaths np sgnR t (mk_nd Real [Z.to_nat N] (signal (Z.to_nat N) i x)) = Ok (p0', S') /\
     alone batch i (p_coef p0) (p_coef p0') /\ Forall2 (fun q q' => erase q' = erase q /\ alone batch i (q_coef q) (q_coef q')) S S') /\
  (forall batch', prod batch' = prod batch -> exists p0' S', jpaths np sgnR t (mk_nd Real (batch' ++ [Z.to_nat N]) (nd_data x)) = Ok (p0', S') /\
     reshaped batch batch' (p_coef p0) (p_coef p0') /\ Forall2 (fun q q' => erase q' = erase q /\ reshaped batch batch' (q_coef q) (q_coef q')) S S').
Proof.
  intros support p out t N batch x p0 S Hc Hw Hsh Hb HS.
  destruct (run_by_parts _ _ _ _ _ _ _ _ _ Hc Hw Hsh Hb HS) as (d0 & ds & rows & H0 & Hds & _ & _ & _ & _ & Ex & R & Hrun).
  pose proof (Hrun batch rows R) as E. rewrite <- Ex, HS in E. injection E as -> ->. cbn [p_coef].
  assert (F2 : forall (A : Type) (R : A -> A -> Prop) (f g : part -> A), (forall d, In d ds -> R (f d) (g d)) -> Forall2 R (map f ds) (map g ds)).
  { intros A R0 f g Hfg. clear - Hfg. induction ds as [|d ds IH]; cbn [map]; constructor; [apply Hfg; now left|]. apply IH. intros; apply Hfg; now right. }
  rewrite Forall_forall in Hds. split.
  - intros i Hi. pose proof (signal_row _ _ _ _ R Hi) as Hl.
    assert (Ei : signal (Z.to_nat N) i x = nth i rows []) by (rewrite Ex; now apply signal_of with (pre := batch)). rewrite Ei, <- single_of.
    assert (R1 : rows_ok [] (Z.to_nat N) [nth i rows []]) by (split; [reflexivity|constructor; [exact Hl|constructor]]).
    eexists _, _. split; [apply (Hrun [] _ R1)|].
    assert (G : forall d, part_ok (Z.to_nat N) d -> alone batch i (coef_of batch rows d) (coef_of [] [nth i rows []] d)).
    { intros d Hd. exists (d_suf d). rewrite !coef_shape. split; [reflexivity|]. split; [reflexivity|]. eapply coef_single; eassumption. }
    split; [apply G, H0|]. apply F2. intros d Hd. split; [reflexivity|]. apply G, Hds, Hd.
  - intros batch' Hp. assert (R1 : rows_ok batch' (Z.to_nat N) rows) by (split; [rewrite Hp; apply R|apply R]).
    eexists _, _. split; [|split].
    + rewrite Ex at 1. apply (Hrun batch' rows R1).
    + split; [reflexivity|]. exists (d_suf d0). split; apply coef_shape.
    + apply F2. intros d Hd. split; [reflexivity|]. split; [reflexivity|]. exists (d_suf d). split; apply coef_shape.
Qed.
Print Assumptions C87_batch_independence.

(** Output type 'array'. *)
Theorem C87_array_independence : forall support p out t N batch x y,
  jconstructed support p out t N -> nd_wf x -> nd_shape x = batch ++ [Z.to_nat N] -> 0 < prod batch -> jtfs_scattering np sgnR t x = Ok (JArray y) ->
  exists suf, nd_wf y /\ nd_shape y = batch ++ suf /\
  (forall i, i < prod batch -> exists y', jtfs_scattering np sgnR t (mk_nd Real [Z.to_nat N] (signal (Z.to_nat N) i x)) = Ok (JArray y') /\
     nd_shape y' = suf /\ nd_data y' = signal (prod suf) i y) /\
  (forall batch', prod batch' = prod batch -> exists y', jtfs_scattering np sgnR t (mk_nd Real (batch' ++ [Z.to_nat N]) (nd_data x)) = Ok (JArray y') /\
     nd_shape y' = batch' ++ suf /\ nd_data y' = nd_data y).
Proof.
  intros support p out t N batch x y Hc Hw Hsh Hb Hy. unfold jtfs_scattering in Hy. destruct (jpaths np sgnR t x) as [[p0 S]|] eqn:HS; [|discriminate].
  cbn [bind] in Hy.
  destruct (run_by_parts _ _ _ _ _ _ _ _ _ Hc Hw Hsh Hb HS) as (d0 & ds & rows & H0 & Hds & Hpre & Hfmt & Hk & _ & Ex & R & Hrun).
  pose proof (Hrun batch rows R) as E. rewrite <- Ex, HS in E. injection E as -> ->.
  (* the parts that are stacked, and the axis *)
  set (joint := String.eqb (t_format t) "joint") in *.
  set (all := if joint then ds else d0 :: ds).
  assert (Hall : Forall (part_ok (Z.to_nat N)) all) by (unfold all; destruct joint; [exact Hds|now constructor]).
  assert (Kall : Forall (fun d => List.length (d_suf d) = if joint then 2 else 1) all).
  { unfold all. destruct joint; [exact Hk|]. constructor; [unfold d_suf; now rewrite Hpre|exact Hk]. }
  set (dim := (- Z.of_nat (1 + if joint then 2 else 1))%Z).
  assert (Hcont : forall batch' rows', rows_ok batch' (Z.to_nat N) rows' ->
    jtfs_scattering np sgnR t (of_rows Real batch' (Z.to_nat N) rows') =
    (if String.eqb (s_out_type (t_base t)) "array" then arr <- stack (map (coef_of batch' rows') all) dim ;; Ok (JArray arr)
     else jcontainer np t (mk_path (coef_of batch' rows' d0) [] []) (map (path_of batch' rows') ds))).
  { intros batch' rows' R'. unfold jtfs_scattering. rewrite (Hrun batch' rows' R'). cbn [bind]. unfold jcontainer.
    destruct (String.eqb (s_out_type (t_base t)) "array"); [|reflexivity]. fold joint. unfold all, dim. rewrite map_map.
    cbn [p_coef numpy_backend be_stack]. destruct joint; reflexivity. }
  assert (Hy' : jtfs_scattering np sgnR t x = Ok (JArray y)) by (unfold jtfs_scattering; rewrite HS; exact Hy).
  rewrite Ex, (Hcont batch rows R) in Hy'.
  destruct (String.eqb (s_out_type (t_base t)) "array") eqn:Eo.
  2:{ unfold jcontainer in Hy'. rewrite Eo in Hy'. destruct (String.eqb _ "dict"); discriminate. }
  destruct (stack (map (coef_of batch rows) all) dim) as [z|] eqn:Ez; [|discriminate]. cbn [bind] in Hy'. injection Hy' as ->.
  destruct (stack_parts_inv batch rows all dim y _ Kall eq_refl Ez) as (Hne & suf & Hsuf).
  assert (Hdim : dim = (- Z.of_nat (1 + List.length suf))%Z).
  { unfold dim. destruct all as [|d all']; [congruence|]. apply Forall_inv in Kall, Hsuf. now rewrite <- Hsuf, Kall. }
  destruct (stack_parts _ batch rows all suf dim Hall R Hne Hsuf Hdim) as (y' & Ey & Wy & Sy & Vy). rewrite Ez in Ey. injection Ey as <-.
  exists (List.length all :: suf). split; [exact Wy|]. split; [exact Sy|].
  change (prod (List.length all :: suf)) with (List.length all * prod suf). split.
  - intros i Hi. pose proof (signal_row _ _ _ _ R Hi) as Hl.
    assert (Ei : signal (Z.to_nat N) i x = nth i rows []) by (rewrite Ex; now apply signal_of with (pre := batch)). rewrite Ei, <- single_of.
    assert (R1 : rows_ok [] (Z.to_nat N) [nth i rows []]) by (split; [reflexivity|constructor; [exact Hl|constructor]]).
    rewrite (Hcont [] _ R1). destruct (stack_parts _ [] [nth i rows []] all suf dim Hall R1 Hne Hsuf Hdim) as (z & Ez1 & Wz & Sz & Vz).
    rewrite Ez1. cbn [bind]. exists z. split; [reflexivity|]. split; [exact Sz|].
    rewrite (Vy i Hi). specialize (Vz 0 ltac:(cbn; lia)). cbn [nth] in Vz. rewrite <- Vz. unfold signal. cbn [Nat.mul skipn].
    unfold nd_wf in Wz. rewrite Sz in Wz. symmetry. rewrite firstn_all2; [reflexivity|]. rewrite Wz. reflexivity.
  - intros batch' Hp. assert (R1 : rows_ok batch' (Z.to_nat N) rows) by (split; [rewrite Hp; apply R|apply R]).
    assert (Enx : mk_nd Real (batch' ++ [Z.to_nat N]) (nd_data x) = of_rows Real batch' (Z.to_nat N) rows) by (now rewrite Ex).
    rewrite Enx, (Hcont batch' rows R1).
    destruct (stack_parts _ batch' rows all suf dim Hall R1 Hne Hsuf Hdim) as (z & Ez1 & Wz & Sz & Vz).
    rewrite Ez1. cbn [bind]. exists z. split; [reflexivity|]. split; [exact Sz|].
    set (K := List.length all * prod suf) in *. unfold nd_wf in Wz, Wy. rewrite Sz in Wz. rewrite Sy in Wy. rewrite prod_app in Wz, Wy.
    change (prod (List.length all :: suf)) with K in *.
    rewrite <- (firstn_all (nd_data z)), <- (firstn_all (nd_data y)), Wz, Wy, Hp. apply blocks_eq. intros c Hc'.
    fold (signal K c z). fold (signal K c y). rewrite Vy by exact Hc'. rewrite Vz by lia. reflexivity.
Qed.
Print Assumptions C87_array_independence.

(** Three ramps of any length N >= 4, alone or in a batch, in both formats and both kinds of output. *)
Example C87_instance : forall N format, (4 <= N)%Z -> In format ["joint"; "time"]%string ->
  let x := mk_nd Real [3; Z.to_nat N] (map (fun i => RtoC (INR i)) (seq 0 (3 * Z.to_nat N))) in
  exists t p0 S t' y, jconstructed (fun _ _ => 1%Z) (default_jparams 2 N 8 1 TNone format) "list" t N /\ jpaths np sgnR t x = Ok (p0, S) /\ S <> [] /\
    jconstructed (fun _ _ => 1%Z) (default_jparams 2 N 8 1 TNone format) "array" t' N /\ jtfs_scattering np sgnR t' x = Ok (JArray y) /\ nd_wf x.
Proof.
  intros N format HN Hf x. assert (Hw : nd_wf x) by (unfold nd_wf, x; cbn; rewrite map_length, seq_length; lia).
  destruct (C40_C64_instance N format HN Hf) as (t & p0 & S & Ht & _ & _ & _ & HS & Hne).
  destruct (default_object (fun _ _ => 1%Z) 2 N 8 1 "array" format) as [t' Ht']; [intros; lia|lia|lia|lia|lia|].
  destruct (C41_default_configurations_partial _ _ _ _ _ _ _ [3] x Ht' (default_strides _ _ _ _ _) (default_int_Q 2 N 8 1 TNone format ltac:(lia)))
    as (p0' & S' & y & _ & Hy & _ & _ & _ & _ & _ & A1 & A2); [now left|exact Hf|exact Hw|reflexivity|reflexivity|].
  assert (exists arr, y = JArray arr) as (arr & ->).
  { destruct Hf as [Hf|[Hf|[]]].
    - destruct (A1 eq_refl (eq_sym Hf)) as (arr & E & _). eauto.
    - destruct (A2 eq_refl (eq_sym Hf)) as (arr & E & _). eauto. }
  exists t, p0, S, t', arr. auto 10.
Qed.
