(** Property C106: mean-square stability of joint time-frequency scattering. *)
From Coq Require Import String Reals ZArith QArith List Bool Arith Lia Lra.
From Coquelicot Require Import Complex.
From Verif Require Import Base BaseProofs NdArray Backend Core1d Utils1d Utils1dProofs Frontend1d Frontend1dProofs NdProofs StackProofs Rows1d FrontRows Mats
  ComplexOps FilterBank1d FilterBank1dProofs Construct1d Shape1d PropFilters1d PropShapes1d Dft Conv1d Value1d Tabulated1d PropNumerics1d Invariance1d Norm1d Stability1d Energy1d
  Jtfs JtfsFront JtfsProofs JtfsKeys JtfsRows JtfsFmt JtfsFull JtfsConstruct JtfsMeta JtfsTotal PropJtfs JtfsReady JtfsRun SpecJtfsValue JtfsValue JtfsCoef PropJtfsValues
  PropJtfsRuns JtfsParts PropJtfsBatch JtfsStability PropJtfsStability JtfsEnergy.
Import ListNotations.
Local Open Scope nat_scope.

(** ** C106 *)
Section Spec.
Variables (t : jtfs (nd C) R) (N : Z) (ls : Z) (a : avg) (lsf : Z) (af : avg).
Notation b := (t_base t).
Notation Np := (padded_length b N).
(** The gain in energy from the signal to the rows that are filtered along frequency: a sum over the rows. *)
Definition energy_order1 : R := sum_of (fun f1 => (norm_at f1 0 * norm_at (s_phi b) (first_rate ls a f1)) ^ 2)%R (s_psi1 b).
Definition energy_order2 (f2 : Core1d.filter (nd C) R) : R :=
  sum_of (fun f1 => (norm_at f1 0 * norm_at f2 (first_rate ls a f1)) ^ 2)%R (List.filter (fun f1 => (f_j f1 <? f_j f2)%Z) (s_psi1 b)).
(** Then the frequential filter and the averages over time and over frequency, as in [jtfs_gain]; the sum of [n] samples multiplies
    the energy by at most [n]. *)
Definition energy_fr (psi : Core1d.filter (nd C) R) : R := (norm_at psi 0 ^ 2 *
  (if (sgnR (f_xi psi) =? 0)%Z then 1
   else match af with Local => norm_at (t_phi_fr t) (Z.min (f_j psi) lsf) ^ 2 | Global => INR (bins t / 2 ^ Z.to_nat (f_j psi)) | NoAvg => 1 end))%R.
Definition jtfs_energy_gain (key : list nat) : R :=
  match key with
  | [nf] =>
    match nth_error (List.filter (fun f => (0 <=? sgnR (f_xi f))%Z) (t_psis_fr t)) nf with
    | Some psi => (energy_order1 * energy_fr psi * match a with Global => INR (Np / 2 ^ Z.to_nat ls) | _ => 1 end)%R
    | None => 0%R
    end
  | [n2; nf] =>
    match nth_error (s_psi2 b) n2, nth_error (t_psis_fr t) nf with
    | Some f2, Some psi =>
      (energy_order2 f2 * energy_fr psi *
       match a with Local => norm_at (s_phi b) (f_j f2) ^ 2 | Global => INR (Np / 2 ^ Z.to_nat (f_j f2)) | NoAvg => 1 end)%R
    | _, _ => 0%R
    end
  | _ => 0%R
  end.
Definition jtfs_energy_gain0 : R := match a with Local => (norm_at (s_phi b) 0 ^ 2)%R | Global => INR Np | NoAvg => 1%R end.
End Spec.

Lemma energy_part t n l r N ls a lsf af key : padded_length (t_base t) N = l + n + r ->
  part_gain2 t n l r ls a (bins t) lsf af key = jtfs_energy_gain t N ls a lsf af key.
Proof.
  intros E. unfold part_gain2, jtfs_energy_gain. rewrite E.
  assert (G : forall f psi j2 c, (f * l1 (idft (lev psi 0)) ^ 2 * time_gain2 (s_phi (t_base t)) a j2 c * freq_gain2 (t_phi_fr t) (bins t) af (sgnR (f_xi psi)) (fr_rate lsf af psi) =
    f * energy_fr t lsf af psi * time_gain2 (s_phi (t_base t)) a j2 c)%R).
  { intros f psi j2 c. unfold energy_fr, freq_gain2, norm_at, fr_rate. destruct (_ =? 0)%Z; [ring|]. destruct af; ring. }
  destruct key as [|nf [|nf' [|? ?]]]; try reflexivity.
  - destruct (nth_error _ nf) as [psi|]; [|reflexivity]. rewrite G. unfold time_gain2. destruct a; reflexivity.
  - destruct (nth_error _ nf) as [f2|]; [|reflexivity]. destruct (nth_error _ nf') as [psi|]; [|reflexivity]. rewrite G. unfold time_gain2. destruct a; reflexivity.
Qed.

(** [y] is another batch of real signals of the same shape; [E] bounds the squared distance of the i-th signals, summed over time.  The
    squared distance of the coefficients of a path is summed over its time samples and, in format 'joint', over its rows.  The factor 3
    is the number of times that reflection padding can repeat a sample. *)
Theorem C106_mean_square : forall support p out t N batch x y p0 S ls a lsf af,
  jconstructed support p out t N -> modes t ls a lsf af -> nd_wf x -> nd_shape x = batch ++ [Z.to_nat N] -> 0 < prod batch -> jpaths np sgnR t x = Ok (p0, S) ->
  nd_wf y -> nd_dtype y = Real -> nd_shape y = nd_shape x ->
  exists p0' S', jpaths np sgnR t y = Ok (p0', S') /\
    let distance i B (q q' : nd C) := exists suf, nd_shape q = batch ++ suf /\ nd_shape q' = batch ++ suf /\
      (rsum (prod suf) (fun u => Cmod (at_ (signal (prod suf) i q) u - at_ (signal (prod suf) i q') u)%C ^ 2) <= B)%R in
    forall i E, i < prod batch ->
      (rsum (Z.to_nat N) (fun u => Cmod (at_ (signal (Z.to_nat N) i x) u - at_ (signal (Z.to_nat N) i y) u)%C ^ 2) <= E)%R ->
      distance i (3 * E * jtfs_energy_gain0 t N a)%R (p_coef p0) (p_coef p0') /\
      Forall2 (fun q q' => erase q' = erase q /\
        distance i (3 * E * jtfs_energy_gain t N ls a lsf af (if String.eqb (t_format t) "joint" then q_n q else tl (q_n q)))%R (q_coef q) (q_coef q')) S S'.
Proof.
  intros support p out t N batch x y p0 S ls a lsf af Hc Hm Hw Hsh Hb HS Hwy Hdy Hsy. pose proof Hc as (_ & _ & _ & HN & _).
  destruct (run_all_parts _ _ _ _ _ _ _ _ _ _ _ _ _ Hc Hm Hw Hsh Hb HS) as (l & r & mx & rows & Hr & ENp & Hf & _ & Ex & R & Hrun).
  rewrite Hsh in Hsy. destruct (of_rows_intro y batch (Z.to_nat N) Hwy Hsy) as (rows' & Ey & R'). rewrite Hdy in Ey.
  pose proof (Hrun batch rows R) as Er. rewrite <- Ex, HS in Er. injection Er as -> ->. cbn [p_coef].
  pose proof (Hrun batch rows' R') as Hy. rewrite <- Ey in Hy. eexists _, _. split; [exact Hy|]. cbv zeta. intros i E Hi HE. cbn [p_coef].
  assert (Exi : signal (Z.to_nat N) i x = nth i rows []) by (rewrite Ex; now apply signal_of with (pre := batch)).
  assert (Eyi : signal (Z.to_nat N) i y = nth i rows' []) by (rewrite Ey; now apply signal_of with (pre := batch)).
  pose proof (signal_row _ _ _ _ R Hi) as Lx. pose proof (signal_row _ _ _ _ R' Hi) as Ly. rewrite Exi, Eyi in HE.
  assert (HE0 : (0 <= E)%R) by (eapply Rle_trans; [|exact HE]; apply rsum_pos; intros; apply gap_pos).
  assert (Hcl : close2 E (nth i rows []) (nth i rows' [])) by (split; [congruence|]; unfold dist2; rewrite Lx; exact HE).
  split.
  - pose proof (part0_ok t (Z.to_nat N) l r mx ls a (bins t) lsf af Hr) as H0. exists (d_suf (part0 t (Z.to_nat N) l r ls a)). rewrite !coef_shape.
    split; [reflexivity|]. split; [reflexivity|]. rewrite !(coef_signal (Z.to_nat N)) by assumption.
    assert (E0 : jtfs_energy_gain0 t N a = zeroth_gain2 t (Z.to_nat N) l r a) by (unfold jtfs_energy_gain0, zeroth_gain2; rewrite ENp; reflexivity). rewrite E0.
    eapply part0_close2; eassumption.
  - pose proof (all_parts_ok t (Z.to_nat N) l r mx ls a (bins t) lsf af Hr Hf) as Hok. rewrite Forall_forall in Hok.
    apply parts_Forall2. intros d Hd. split; [reflexivity|]. specialize (Hok d Hd). exists (d_suf d).
    change (q_coef (path_of batch rows d)) with (coef_of batch rows d). change (q_coef (path_of batch rows' d)) with (coef_of batch rows' d). rewrite !coef_shape.
    split; [reflexivity|]. split; [reflexivity|]. rewrite !(coef_signal (Z.to_nat N)) by assumption.
    change (q_n (path_of batch rows d)) with (q_n (d_q d)). rewrite <- (energy_part t (Z.to_nat N) l r) by exact ENp.
    exact (part_close2 t (Z.to_nat N) l r mx ls a (bins t) lsf af Hr d E _ _ Hf Hd Lx HE0 Hcl).
Qed.
Print Assumptions C106_mean_square.

(** The energy of the coefficients of a path is at most three times its gain times the energy of the signal. *)
Lemma scaled_zero k n i (q q' : nd C) u : k = 0%R -> scaled k q q' -> at_ (signal n i q') u = RtoC 0.
Proof.
  intros -> [_ E]. unfold signal. rewrite E, skipn_map, firstn_map. set (v := firstn _ _).
  destruct (Nat.lt_ge_cases u (List.length v)) as [H|H]; [rewrite at_map_C by exact H; apply Cmult_0_l|]. apply at_over. now rewrite map_length.
Qed.
Theorem C106_energy : forall support p out t N batch x p0 S ls a lsf af i,
  jconstructed support p out t N -> modes t ls a lsf af -> nd_wf x -> nd_shape x = batch ++ [Z.to_nat N] -> 0 < prod batch -> jpaths np sgnR t x = Ok (p0, S) ->
  i < prod batch ->
  let energy (q : nd C) n := rsum n (fun u => Cmod (at_ (signal n i q) u) ^ 2)%R in
  let bounded (q : nd C) g := exists suf, nd_shape q = batch ++ suf /\ (energy q (prod suf) <= 3 * g * energy x (Z.to_nat N))%R in
  bounded (p_coef p0) (jtfs_energy_gain0 t N a) /\
  forall q, In q S -> bounded (q_coef q) (jtfs_energy_gain t N ls a lsf af (if String.eqb (t_format t) "joint" then q_n q else tl (q_n q))).
Proof.
  intros support p out t N batch x p0 S ls a lsf af i Hc Hm Hw Hsh Hb HS Hi energy bounded.
  set (y := mk_nd Real (nd_shape x) (map (Cmult (RtoC 0)) (nd_data x))).
  assert (Hwy : nd_wf y) by (unfold nd_wf, y; cbn [nd_data nd_shape]; rewrite map_length; exact Hw).
  destruct (C88_homogeneous _ _ _ _ _ batch x p0 S _ _ _ _ 0 Hc Hm Hw Hsh Hb HS) as (p1 & S1 & Hr0 & Z0 & F0). fold y in Hr0.
  destruct (C106_mean_square _ _ _ _ _ batch x y p0 S _ _ _ _ Hc Hm Hw Hsh Hb HS Hwy eq_refl eq_refl) as (p0' & S' & Hr & G).
  rewrite Hr in Hr0. injection Hr0 as <- <-. cbv zeta in G.
  destruct (G i (energy x (Z.to_nat N)) Hi) as [G0 GS].
  { right. apply rsum_ext. intros u _. do 2 f_equal. rewrite (scaled_zero 0 (Z.to_nat N) i x y u eq_refl); [ring|split; reflexivity]. }
  assert (K : forall k g (q q' : nd C), k = 0%R -> scaled k q q' ->
    (exists suf, nd_shape q = batch ++ suf /\ nd_shape q' = batch ++ suf /\
      (rsum (prod suf) (fun u => Cmod (at_ (signal (prod suf) i q) u - at_ (signal (prod suf) i q') u)%C ^ 2) <= 3 * energy x (Z.to_nat N) * g)%R) -> bounded q g).
  { intros k g q q' Hk Hz (suf & E1 & _ & B). exists suf. split; [exact E1|]. replace (3 * g * energy x (Z.to_nat N))%R with (3 * energy x (Z.to_nat N) * g)%R by ring.
    eapply Rle_trans; [|exact B]. right. apply rsum_ext. intros u _. do 2 f_equal. rewrite (scaled_zero k _ i q q' u Hk Hz). ring. }
  split; [eapply K; [reflexivity|exact Z0|exact G0]|].
  intros q Hq. clear - F0 GS K Hq. revert Hq. induction GS as [|q0 q1 l l' [_ G1] _ IH]; [intros []|]. inversion F0 as [|? ? ? ? [_ Z1] F1]; subst.
  intros [<-|Hq]; [eapply K; [apply Rabs_R0|exact Z1|exact G1]|apply IH; assumption].
Qed.
Print Assumptions C106_energy.

(** A batch of three ramps of any length N >= 4 and the zero batch. *)
Example C106_instance : forall N format, (4 <= N)%Z -> In format ["joint"; "time"]%string ->
  let x := mk_nd Real [3; Z.to_nat N] (map (fun i => RtoC (INR i)) (seq 0 (3 * Z.to_nat N))) in
  let y := mk_nd Real [3; Z.to_nat N] (repeat (RtoC 0) (3 * Z.to_nat N)) in
  exists t p0 S ls a lsf af, jconstructed (fun _ _ => 1%Z) (default_jparams 2 N 8 1 TNone format) "list" t N /\ modes t ls a lsf af /\
    nd_wf x /\ jpaths np sgnR t x = Ok (p0, S) /\ S <> [] /\ nd_wf y /\ nd_dtype y = Real /\ nd_shape y = nd_shape x.
Proof.
  intros N format HN Hf x y. destruct (C88_C89_instance N format HN Hf) as (t & p0 & S & ls & a & lsf & af & _ & _ & _ & _ & _ & _ & Ht & Hm & Hw & HS & Hne & _).
  exists t, p0, S, ls, a, lsf, af. repeat split; try assumption; try apply Ht; try apply Hm. unfold nd_wf. cbn. rewrite repeat_length. lia.
Qed.
