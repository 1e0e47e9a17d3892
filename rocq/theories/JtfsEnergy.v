(** The mean-square distance of two signals through the steps of joint time-frequency scattering. *)
From Coq Require Import String Reals ZArith QArith List Bool Arith Lia Lra.
From Coquelicot Require Import Complex.
From Verif Require PropEnergy2d.
From Verif Require Import Base BaseProofs NdArray Backend Core1d Utils1d Utils1dProofs Frontend1d Frontend1dProofs NdProofs StackProofs Rows1d FrontRows Mats
  Factory1d FactoryProofs ComplexOps FilterBank1d FilterBank1dProofs Construct1d Shape1d PropFilters1d PropShapes1d Dft Conv1d Value1d Tabulated1d PropNumerics1d Invariance1d Norm1d Stability1d Energy1d
  Jtfs JtfsFront JtfsProofs JtfsKeys JtfsRows JtfsFmt JtfsFull JtfsConstruct JtfsMeta JtfsTotal PropJtfs JtfsReady JtfsRun SpecJtfsValue JtfsValue JtfsCoef PropJtfsValues
  JtfsParts JtfsStability.
Import ListNotations.
Local Open Scope nat_scope.

Notation gap f g := (Cmod (f - g)%C ^ 2)%R.
Lemma gap_pos (u v : C) : (0 <= gap u v)%R.
Proof. apply pow2_ge_0. Qed.
Lemma close2_any E x y V : close2 E x y -> (rsum V (fun v => gap (at_ x v) (at_ y v)) <= E)%R.
Proof.
  intros [Hl Hc]. eapply Rle_trans; [|exact Hc].
  apply (rsum_window 0 V (List.length x) (fun t => gap (at_ x t) (at_ y t))).
  - intros; apply gap_pos.
  - intros i Hi. rewrite !at_over by lia. replace (RtoC 0 - RtoC 0)%C with (RtoC 0) by ring. rewrite Cmod_0. ring.
Qed.
Lemma close2_refl x y : List.length y = List.length x -> close2 (dist2 x y) x y.
Proof. intros H. split; [exact H|lra]. Qed.
Lemma dist2_seq n (f g : nat -> C) : dist2 (map f (seq 0 n)) (map g (seq 0 n)) = rsum n (fun u => gap (f u) (g u)).
Proof. unfold dist2. rewrite map_length, seq_length. apply rsum_ext. intros u Hu. now rewrite !at_map_seq by exact Hu. Qed.
Lemma close2_sum1 E x y : close2 E x y -> close2 (E * INR (List.length x)) [csum (List.length x) (at_ x)] [csum (List.length y) (at_ y)].
Proof.
  intros H. split; [reflexivity|]. unfold dist2. cbn [List.length rsum]. unfold at_ at 1 3. cbn [nth]. apply close2_sum in H. lra.
Qed.

Section Close.
Context {P : Type}.
Notation filter := (Core1d.filter (nd C) P).
Variables (phi : filter) (ls : Z) (a : avg) (phi_fr : filter) (Nfr : nat) (lsf : Z) (af : avg).

(** Squared distance of two matrices, over their first [m] rows and [c] columns. *)
Definition mdist (m c : nat) (X Y : list (list C)) : R := rsum m (fun n => rsum c (fun u => gap (at_ (nth n X []) u) (at_ (nth n Y []) u))).
Lemma mdist_pos m c X Y : (0 <= mdist m c X Y)%R.
Proof. apply rsum_pos. intros. apply rsum_pos. intros; apply gap_pos. Qed.

Lemma modulus_close2 X Y (psi : filter) c : 0 < Nfr -> level_ok psi 0 Nfr ->
  (rsum Nfr (fun p => rsum c (fun u => gap (joint_modulus Nfr X psi p u) (joint_modulus Nfr Y psi p u))) <= l1 (idft (lev psi 0)) ^ 2 * mdist Nfr c X Y)%R.
Proof.
  intros HN Hl. unfold mdist. rewrite rsum_swap, (rsum_swap Nfr c), <- rsum_scal. apply rsum_le. intros u Hu.
  assert (EX : forall Z0, List.length (column Nfr Z0 u) = Nfr) by (intros; unfold column; now rewrite map_length, seq_length).
  eapply Rle_trans; [|eapply Rle_trans; [apply (cconv_dist2 (column Nfr X u) (column Nfr Y u) (idft (lev psi 0)))|]].
  - rewrite EX. apply rsum_le. intros p Hp. apply pow_incr. split; [apply Cmod_ge_0|]. unfold joint_modulus. rewrite <- RtoC_minus, Cmod_R. apply Cmod_sub_abs.
  - rewrite EX. exact HN.
  - rewrite idft_length, (level_length _ _ _ Hl), EX. reflexivity.
  - now rewrite !EX.
  - right. f_equal. unfold column. apply dist2_seq.
Qed.

(** Gains of the averages in mean square: summing [n] samples multiplies a squared distance by at most [n]. *)
Definition time_gain2 (j2 : option Z) (n : nat) : R :=
  match a, j2 with Global, _ => INR n | Local, Some j => (l1 (idft (lev phi j)) ^ 2)%R | _, _ => 1%R end.
Definition freq_gain2 (spin kf : Z) : R :=
  if (spin =? 0)%Z then 1%R else
  match af with Global => INR (Nfr / 2 ^ Z.to_nat kf) | Local => (l1 (idft (lev phi_fr kf)) ^ 2)%R | NoAvg => 1%R end.
Lemma time_gain2_pos j2 n : (0 <= time_gain2 j2 n)%R.
Proof. unfold time_gain2. destruct a; [destruct j2; [apply pow2_ge_0|lra]|apply pos_INR|lra]. Qed.
Lemma freq_gain2_pos spin kf : (0 <= freq_gain2 spin kf)%R.
Proof. unfold freq_gain2. destruct (_ =? _)%Z; [lra|]. destruct af; [apply pow2_ge_0|apply pos_INR|lra]. Qed.

Lemma averaged_row_close2 j2 X Y (psi : filter) kf n r V : 0 < n ->
  (forall j, a = Local -> j2 = Some j -> level_ok phi j n) ->
  (rsum V (fun v => gap (at_ (averaged_row phi ls a Nfr j2 X psi kf n r) v) (at_ (averaged_row phi ls a Nfr j2 Y psi kf n r) v))
   <= time_gain2 j2 n * rsum n (fun u => gap (joint_modulus Nfr X psi (2 ^ Z.to_nat kf * r) u) (joint_modulus Nfr Y psi (2 ^ Z.to_nat kf * r) u)))%R.
Proof.
  intros Hn Hj. unfold averaged_row.
  set (f := fun u => joint_modulus Nfr X psi (2 ^ Z.to_nat kf * r) u). set (g := fun u => joint_modulus Nfr Y psi (2 ^ Z.to_nat kf * r) u).
  rewrite <- (dist2_seq n f g).
  assert (H : close2 (dist2 (map f (seq 0 n)) (map g (seq 0 n))) (map f (seq 0 n)) (map g (seq 0 n))) by (apply close2_refl; now rewrite !map_length).
  assert (HL : List.length (map f (seq 0 n)) = n) by now rewrite map_length, seq_length.
  set (E := dist2 _ _) in *. rewrite Rmult_comm. apply close2_any. unfold time_average, time_gain2. destruct a.
  - destruct j2 as [j|]; [|rewrite Rmult_1_r; exact H]. specialize (Hj j eq_refl eq_refl).
    apply close2_lowpass; [rewrite HL; exact Hn|rewrite (level_length _ _ _ Hj), HL; reflexivity|exact H].
  - apply close2_sum1 in H. rewrite HL in H at 1. exact H.
  - rewrite Rmult_1_r. exact H.
Qed.
Lemma freq_average_close2 kf x y V : List.length x = Nfr / 2 ^ Z.to_nat kf -> List.length y = List.length x -> 0 < List.length x ->
  (af = Local -> level_ok phi_fr kf (Nfr / 2 ^ Z.to_nat kf)) -> forall spin, spin <> 0%Z ->
  (rsum V (fun v => gap (at_ (freq_average phi_fr lsf af kf x) v) (at_ (freq_average phi_fr lsf af kf y) v)) <= freq_gain2 spin kf * dist2 x y)%R.
Proof.
  intros Hx Hy H0 Hl spin Hs. rewrite Rmult_comm. apply close2_any. pose proof (close2_refl x y Hy) as H. unfold freq_average, freq_gain2.
  rewrite (proj2 (Z.eqb_neq _ _) Hs). destruct af.
  - specialize (Hl eq_refl). apply close2_lowpass; [exact H0|rewrite (level_length _ _ _ Hl), Hx; reflexivity|exact H].
  - apply close2_sum1 in H. rewrite Hx in H at 1. exact H.
  - rewrite Rmult_1_r. exact H.
Qed.

(** All the coefficients of a path. *)
Lemma joint_value_close2 j2 X Y (psi : filter) spin kf n R V : 0 < Nfr -> level_ok psi 0 Nfr -> 0 < n ->
  (forall j, a = Local -> j2 = Some j -> level_ok phi j n) -> 0 < Nfr / 2 ^ Z.to_nat kf ->
  (af = Local -> spin <> 0%Z -> level_ok phi_fr kf (Nfr / 2 ^ Z.to_nat kf)) -> R <= freq_rows Nfr lsf af spin kf ->
  (rsum R (fun r => rsum V (fun v => gap (joint_value phi ls a phi_fr Nfr lsf af j2 X psi spin kf n r v) (joint_value phi ls a phi_fr Nfr lsf af j2 Y psi spin kf n r v)))
   <= mdist Nfr n X Y * l1 (idft (lev psi 0)) ^ 2 * time_gain2 j2 n * freq_gain2 spin kf)%R.
Proof.
  intros HN Hl Hn Hj Hk Hf HR. set (K := Nfr / 2 ^ Z.to_nat kf) in *. pose proof (time_gain2_pos j2 n) as HG. pose proof (freq_gain2_pos spin kf) as HG'.
  assert (H1 : (rsum K (fun p => rsum V (fun v => gap (at_ (averaged_row phi ls a Nfr j2 X psi kf n p) v) (at_ (averaged_row phi ls a Nfr j2 Y psi kf n p) v)))
    <= mdist Nfr n X Y * l1 (idft (lev psi 0)) ^ 2 * time_gain2 j2 n)%R).
  { apply Rle_trans with (rsum K (fun p => time_gain2 j2 n * rsum n (fun u => gap (joint_modulus Nfr X psi (2 ^ Z.to_nat kf * p) u) (joint_modulus Nfr Y psi (2 ^ Z.to_nat kf * p) u)))%R).
    - apply rsum_le. intros p _. now apply averaged_row_close2.
    - rewrite rsum_scal, Rmult_comm. apply Rmult_le_compat_r; [exact HG|]. rewrite Rmult_comm. eapply Rle_trans; [|now apply modulus_close2].
      apply (rsum_every Nfr (2 ^ Z.to_nat kf) (fun p => rsum n (fun u => gap (joint_modulus Nfr X psi p u) (joint_modulus Nfr Y psi p u)))).
      intros p. apply rsum_pos. intros; apply gap_pos. }
  unfold joint_value. unfold freq_rows in HR. fold K in HR. destruct (Z.eqb_spec spin 0) as [E0|Hs].
  - assert (Eg : freq_gain2 spin kf = 1%R) by (unfold freq_gain2; rewrite E0; reflexivity). rewrite Eg, Rmult_1_r.
    eapply Rle_trans; [|exact H1]. apply (rsum_more R K (fun p => rsum V (fun v => gap (at_ (averaged_row phi ls a Nfr j2 X psi kf n p) v) (at_ (averaged_row phi ls a Nfr j2 Y psi kf n p) v)))); [|exact HR].
    intros p. apply rsum_pos. intros; apply gap_pos.
  - fold K. rewrite rsum_swap.
    apply Rle_trans with (rsum V (fun v => freq_gain2 spin kf * rsum K (fun p => gap (at_ (averaged_row phi ls a Nfr j2 X psi kf n p) v) (at_ (averaged_row phi ls a Nfr j2 Y psi kf n p) v)))%R).
    + apply rsum_le. intros v _.
      rewrite <- (dist2_seq K (fun p => at_ (averaged_row phi ls a Nfr j2 X psi kf n p) v) (fun p => at_ (averaged_row phi ls a Nfr j2 Y psi kf n p) v)).
      apply freq_average_close2; rewrite ?map_length, ?seq_length; try reflexivity; try assumption. intros Ea. now apply Hf.
    + rewrite rsum_scal, Rmult_comm. apply Rmult_le_compat_r; [exact HG'|]. rewrite rsum_swap. exact H1.
Qed.
End Close.

(** ** The rows that the frequential filters are applied to *)
Definition sum_of {A} (f : A -> R) (l : list A) : R := fold_right (fun x m => (f x + m)%R) 0%R l.
Lemma sum_of_pos {A} (f : A -> R) l : (forall x, In x l -> (0 <= f x)%R) -> (0 <= sum_of f l)%R.
Proof.
  induction l as [|x l IH]; intros H; cbn [sum_of fold_right]; [lra|]. pose proof (H x (or_introl eq_refl)). specialize (IH ltac:(intros; apply H; now right)).
  unfold sum_of in IH. lra.
Qed.
Lemma rsum_first k (g : nat -> R) : rsum (S k) g = (g O + rsum k (fun i => g (S i)))%R.
Proof. change (S k) with (1 + k). rewrite rsum_cat. cbn [rsum]. rewrite Rplus_0_l. reflexivity. Qed.
Lemma mdist_map {A} E (w : A -> R) (g : list C -> A -> list C) x y c l : (0 <= E)%R -> (forall f, In f l -> (0 <= w f)%R /\ close2 (E * w f) (g x f) (g y f)) ->
  forall m, (mdist m c (map (g x) l) (map (g y) l) <= E * sum_of w l)%R.
Proof.
  intros HE. induction l as [|f l IH]; intros H m.
  - cbn [map sum_of fold_right]. unfold mdist. rewrite (rsum_ext m _ (fun _ => 0%R)).
    + rewrite rsum_const. lra.
    + intros n _. rewrite (rsum_ext c _ (fun _ => 0%R)); [rewrite rsum_const; lra|]. intros u _. unfold at_. destruct n; cbn [nth]; destruct u; cbn [nth];
        replace (RtoC 0 - RtoC 0)%C with (RtoC 0) by ring; rewrite Cmod_0; ring.
  - cbn [map sum_of fold_right]. destruct (H f (or_introl eq_refl)) as [Hw Hc]. fold (sum_of w l). specialize (IH ltac:(intros; apply H; now right)).
    pose proof (sum_of_pos w l ltac:(intros z Hz; now apply (H z (or_intror Hz)))) as HS.
    destruct m as [|m]; [unfold mdist; cbn [rsum]; apply Rmult_le_pos; [exact HE|lra]|].
    unfold mdist. rewrite rsum_first. cbn [nth]. rewrite Rmult_plus_distr_l. apply Rplus_le_compat; [now apply close2_any|apply IH].
Qed.

Section Rows.
Context {P : Type}.
Notation filter := (Core1d.filter (nd C) P).
Variables (phi : filter) (psi1 psi2 : list filter) (N : nat) (ls : Z) (a : avg).
Hypothesis (Ht : jadm_time phi psi1 psi2 N ls (is_local_avg a)).

Lemma rate1_low (f1 : filter) : rate1 ls a f1 = kk ls (is_local_avg a) f1.
Proof. unfold rate1, kk. now destruct a. Qed.
Definition rows1_gain2 : R := sum_of (fun f1 => (l1 (idft (lev f1 0)) * l1 (idft (lev phi (rate1 ls a f1)))) ^ 2)%R psi1.
Definition rows2_gain2 (f2 : filter) : R :=
  sum_of (fun f1 => (l1 (idft (lev f1 0)) * l1 (idft (lev f2 (rate1 ls a f1)))) ^ 2)%R (List.filter (fun f1 => (f_j f1 <? f_j f2)%Z) psi1).

Lemma U1_close2 E x y f1 : In f1 psi1 -> List.length x = N -> close2 E x y ->
  close2 (E * l1 (idft (lev f1 0)) ^ 2) (U1 ls a f1 x) (U1 ls a f1 y) /\ List.length (U1 ls a f1 x) = N / p2 (rate1 ls a f1).
Proof.
  intros H1 Hx Hc. destruct (jt_psi1 _ _ _ _ _ _ Ht f1 H1) as (_ & L & _). pose proof (jt_N _ _ _ _ _ _ Ht).
  unfold U1. split; [apply close2_envelope; [lia|rewrite (level_length _ _ _ L); congruence|exact Hc]|]. rewrite sampled_envelope_length, Hx. reflexivity.
Qed.
Lemma rows1_close2 E x y m c : (0 <= E)%R -> List.length x = N -> close2 E x y ->
  (mdist m c (rows1 phi psi1 ls a x) (rows1 phi psi1 ls a y) <= E * rows1_gain2)%R.
Proof.
  intros HE Hx Hc. unfold rows1, rows1_gain2.
  apply (mdist_map E _ (fun x f1 => sampled_lowpass (U1 ls a f1 x) (lev phi (rate1 ls a f1)) (2 ^ Z.to_nat (ls - rate1 ls a f1)))); [exact HE|].
  intros f1 H1. split; [apply pow2_ge_0|]. destruct (U1_close2 E x y f1 H1 Hx Hc) as [U L].
  destruct (kk_facts phi psi1 psi2 N ls (is_local_avg a) Ht f1 H1) as (_ & _ & _ & K4 & _).
  destruct (jt_psi1 _ _ _ _ _ _ Ht f1 H1) as (_ & _ & _ & Lp). rewrite <- rate1_low in *.
  rewrite Rpow_mult_distr, <- Rmult_assoc. apply close2_lowpass; [rewrite L; exact K4|rewrite (level_length _ _ _ Lp); congruence|exact U].
Qed.
Lemma rows2_close2 E f2 x y m c : (0 <= E)%R -> In f2 psi2 -> List.length x = N -> close2 E x y ->
  (mdist m c (rows2 psi1 ls a f2 x) (rows2 psi1 ls a f2 y) <= E * rows2_gain2 f2)%R.
Proof.
  intros HE H2 Hx Hc. unfold rows2, rows2_gain2.
  apply (mdist_map E _ (fun x f1 => sampled_conv (U1 ls a f1 x) (lev f2 (rate1 ls a f1)) (2 ^ Z.to_nat (f_j f2 - rate1 ls a f1)))); [exact HE|].
  intros f1 Hf1. split; [apply pow2_ge_0|]. apply filter_In in Hf1 as [H1 Hj]. apply Z.ltb_lt in Hj. destruct (U1_close2 E x y f1 H1 Hx Hc) as [U L].
  destruct (kk_facts phi psi1 psi2 N ls (is_local_avg a) Ht f1 H1) as (_ & _ & _ & K4 & _).
  destruct (jt_psi2 _ _ _ _ _ _ Ht f1 f2 H1 H2 Hj) as (Lp & _). rewrite <- rate1_low in *.
  pose proof (proj1 U) as El. split; [unfold sampled_conv; now rewrite !map_length, El|].
  unfold sampled_conv. rewrite El, dist2_seq. set (k := 2 ^ Z.to_nat (f_j f2 - rate1 ls a f1)).
  set (u1 := U1 ls a f1 x) in *. set (v1 := U1 ls a f1 y) in *. set (w := lev f2 (rate1 ls a f1)) in *.
  eapply Rle_trans; [apply (rsum_every (List.length u1) k (fun t => gap (cconv u1 (idft w) (Z.of_nat t)) (cconv v1 (idft w) (Z.of_nat t)))); intros; apply gap_pos|].
  eapply Rle_trans; [apply cconv_dist2; [rewrite L; exact K4|unfold w; rewrite idft_length, (level_length _ _ _ Lp); congruence|exact El]|].
  rewrite Rpow_mult_distr, <- Rmult_assoc, Rmult_comm. apply Rmult_le_compat_r; [apply pow2_ge_0|]. apply U.
Qed.
End Rows.

(** ** The parts of a call *)
Section Parts.
Variables (t : jtfs (nd C) R) (n l r mx : nat) (ls : Z) (a : avg) (Nfr : nat) (lsf : Z) (af : avg).
Hypothesis (Hr : jready sgnR t n l r mx ls a Nfr lsf af).
Notation b := (t_base t).
Notation N := (l + n + r).
Notation ds := (all_parts t n l r ls a Nfr lsf af).
Notation pad := (pad_reflect_row complex_ops l r n).
Notation joint_key := (joint_key t).

(** As [part_value], with the rows that the part covers. *)
Lemma part_value_rows d : t_format t = "joint"%string \/ t_format t = "time"%string -> In d ds ->
  exists psi j2 G c m r0 start, source t N ls a (joint_key (q_n (d_q d))) psi j2 G c m /\ In psi (t_psis_fr t) /\
    (forall j, a = Local -> j2 = Some j -> level_ok (s_phi b) j c) /\ 0 < c /\
    r0 + prod (d_pre d) <= freq_rows Nfr lsf af (sgnR (f_xi psi)) (fr_rate lsf af psi) /\
    (forall row k tau, List.length row = n -> k < prod (d_pre d) -> tau < d_len d ->
      at_ (nth k (d_gen d row) []) tau =
      joint_value (s_phi b) ls a (t_phi_fr t) Nfr lsf af j2 (G (pad row)) psi (sgnR (f_xi psi)) (fr_rate lsf af psi) c (r0 + k) (start + tau)).
Proof.
  intros Hf Hd. apply in_flat_map in Hd as (e & He & Hd).
  destruct (entry_spec t n l r mx ls a Nfr lsf af Hr e He) as (psi & j2 & G & c & m & Hsrc & Hcn & Hm0 & Hpsi & Hsp & Hjf & Hn1 & Hj2 & Hem & _ & _ & _ & Hval).
  pose proof (entries_fmt complex_ops complex_ops_ok sgnR t _ _ _ _ _ _ _ _ _ Hr e He) as HF.
  destruct (entry_rows t _ _ _ _ _ _ _ _ _ Hr e psi He Hjf Hsp Hem Hpsi) as (W1 & _). rewrite Hsp in W1.
  assert (Hc : 0 < c) by (rewrite Hcn; apply (fo_n _ _ _ _ _ _ _ _ _ _ HF)).
  assert (Hlev : forall j, a = Local -> j2 = Some j -> level_ok (s_phi b) j c).
  { intros j Ea Ej. rewrite Hj2 in Ej. unfold j2_of in Ej. destruct (second (e_q e)) eqn:Es; [|discriminate]. injection Ej as <-. rewrite Hcn.
    apply (fo_time _ _ _ _ _ _ _ _ _ _ HF Ea Es). }
  pose proof (fun row => jmat_ok complex_ops complex_ops_ok sgnR t _ _ _ _ _ _ _ _ _ Hr e row He) as Hok.
  destruct (restride_same lsf af (e_q e)) as (R1 & R2 & R3 & R4 & R5).
  unfold parts in Hd. destruct Hf as [Hf|Hf]; rewrite Hf in Hd; cbn [String.eqb Ascii.eqb Bool.eqb] in Hd.
  - destruct Hd as [<-|[]]. set (q := joint_q lsf af e) in *.
    exists psi, j2, G, c, m, 0, (match a with Global => 0 | _ => jlo l (tres ls a q) end). cbn [d_q d_pre d_len d_gen].
    unfold JtfsStability.joint_key. rewrite Hf. cbn [String.eqb Ascii.eqb Bool.eqb]. change (q_n q) with (q_n (restride lsf af (e_q e))). rewrite R2.
    split; [exact Hsrc|]. split; [exact Hpsi|]. split; [exact Hlev|]. split; [exact Hc|]. split; [cbn; lia|]. intros row k tau Hrow Hk Ht.
    assert (Hk' : k < jrows t lsf af e) by (cbn in Hk; lia). destruct (Hok row) as [O1 O2].
    rewrite (nth_map_any _ _ _ _ []) by (rewrite O1; exact Hk').
    assert (Hlen : List.length (nth k (jmat complex_ops t n l r ls a lsf af e row) []) = jcols ls a e).
    { rewrite Forall_forall in O2. apply O2, nth_In. rewrite O1. exact Hk'. }
    destruct (tcut_at n l ls a q _ _ tau Hlen Ht) as [T1 T2]. rewrite T1, <- Hsp. cbn [Nat.add]. apply Hval; assumption.
  - apply in_map_iff in Hd as (k & <- & Hk). set (q := time_q lsf af e k) in *.
    exists psi, j2, G, c, m, k, (match a with Global => 0 | _ => jlo l (tres ls a q) end). cbn [d_q d_pre d_len d_gen].
    unfold JtfsStability.joint_key. rewrite Hf. cbn [String.eqb Ascii.eqb Bool.eqb]. assert (Eq : tl (q_n q) = q_n (e_q e)) by (unfold q, time_q, label; cbn [set_n q_n tl]; exact R2). rewrite Eq.
    assert (Hkr : k < jrows t lsf af e).
    { apply in_seq in Hk. pose proof (entries_labels complex_ops complex_ops_ok sgnR t _ _ _ _ _ _ _ _ _ Hr e He) as HL.
      pose proof (fo_s _ _ _ _ _ _ _ _ _ _ HF) as Hs. pose proof (fo_max _ _ _ _ _ _ _ _ _ _ HF) as Hm.
      unfold jrows, ulen, joint_array. rewrite Hf. cbn [String.eqb Ascii.eqb Bool.eqb]. rewrite andb_false_r.
      unfold nlabels in *. set (s := estride lsf af (e_q e)) in *. set (mm := q_n1_max (e_q e)) in *.
      assert ((mm + s - 1) / s <= 1 + mm / s)%Z.
      { replace (1 + mm / s)%Z with ((mm + 1 * s) / s)%Z by (rewrite Z.div_add by lia; lia). apply Z.div_le_mono; lia. }
      assert (0 <= mm / s)%Z by (apply Z.div_pos; lia). lia. }
    split; [exact Hsrc|]. split; [exact Hpsi|]. split; [exact Hlev|]. split; [exact Hc|]. split; [cbn; lia|]. intros row k' tau Hrow Hk' Ht.
    assert (k' = 0) by (cbn in Hk'; lia). subst k'. cbn [nth]. rewrite Nat.add_0_r.
    destruct (Hok row) as [O1 O2].
    assert (Hlen : List.length (nth k (jmat complex_ops t n l r ls a lsf af e row) []) = jcols ls a e).
    { rewrite Forall_forall in O2. apply O2, nth_In. rewrite O1. exact Hkr. }
    destruct (tcut_at n l ls a q _ _ tau Hlen Ht) as [T1 T2]. rewrite T1, <- Hsp. apply Hval; assumption.
Qed.

Definition part_gain2 (key : list nat) : R :=
  let tail f psi j2 c := (f * l1 (idft (lev psi 0)) ^ 2 * time_gain2 (s_phi b) a j2 c * freq_gain2 (t_phi_fr t) Nfr af (sgnR (f_xi psi)) (fr_rate lsf af psi))%R in
  match key with
  | [nf] => match nth_error (List.filter (fun f => (0 <=? sgnR (f_xi f))%Z) (t_psis_fr t)) nf with
            | Some psi => tail (rows1_gain2 (s_phi b) (s_psi1 b) ls a) psi None (N / 2 ^ Z.to_nat ls)
            | None => 0%R end
  | [n2; nf] => match nth_error (s_psi2 b) n2, nth_error (t_psis_fr t) nf with
                | Some f2, Some psi => tail (rows2_gain2 (s_psi1 b) ls a f2) psi (Some (f_j f2)) (N / 2 ^ Z.to_nat (f_j f2))
                | _, _ => 0%R end
  | _ => 0%R
  end.
Lemma part_close2 d E x y : t_format t = "joint"%string \/ t_format t = "time"%string -> In d ds -> List.length x = n -> (0 <= E)%R -> close2 E x y ->
  (rsum (prod (d_suf d)) (fun u => gap (at_ (concat (d_gen d x)) u) (at_ (concat (d_gen d y)) u)) <= 3 * E * part_gain2 (joint_key (q_n (d_q d))))%R.
Proof.
  intros Hf Hd Hx HE Hc. pose proof (all_parts_ok t n l r mx ls a Nfr lsf af Hr Hf) as Hok. rewrite Forall_forall in Hok. specialize (Hok d Hd).
  assert (Hy : List.length y = n) by (rewrite (proj1 Hc); exact Hx).
  destruct (part_value_rows d Hf Hd) as (psi & j2 & G & cc & m & r0 & st & Hsrc & Hpsi & Hlev & Hcc & HR & V).
  pose proof (jr_time _ _ _ _ _ _ _ _ _ _ _ Hr) as HT. pose proof (jr_fr _ _ _ _ _ _ _ _ _ _ _ Hr) as HF.
  apply (close2_pad E l r n) in Hc; [|apply (jr_l _ _ _ _ _ _ _ _ _ _ _ Hr)|apply (jr_r _ _ _ _ _ _ _ _ _ _ _ Hr)|exact Hx].
  destruct (jf_psi _ _ _ _ _ _ HF psi Hpsi) as (F1 & F2 & F3). rewrite kf_rate in F3.
  assert (HNfr : 0 < Nfr). { pose proof (jf_room _ _ _ _ _ _ HF). pose proof (jt_ne _ _ _ _ _ _ HT). destruct (s_psi1 b); [congruence|cbn in *; lia]. }
  assert (Hk : 0 < Nfr / 2 ^ Z.to_nat (fr_rate lsf af psi)) by (apply (div_p2_pos (fr_rate lsf af psi)); assumption).
  assert (Hphi : af = Local -> sgnR (f_xi psi) <> 0%Z -> level_ok (t_phi_fr t) (fr_rate lsf af psi) (Nfr / 2 ^ Z.to_nat (fr_rate lsf af psi))).
  { intros Ea Es. destruct (jr_aligned _ _ _ _ _ _ _ _ _ _ _ Hr Ea psi Hpsi Es) as (_ & _ & A). unfold fr_rate. rewrite Ea. exact A. }
  set (val := fun z => joint_value (s_phi b) ls a (t_phi_fr t) Nfr lsf af j2 (G (pad z)) psi (sgnR (f_xi psi)) (fr_rate lsf af psi) cc) in *.
  assert (H1 : (rsum (prod (d_suf d)) (fun u => gap (at_ (concat (d_gen d x)) u) (at_ (concat (d_gen d y)) u)) <=
    rsum (r0 + prod (d_pre d)) (fun k => rsum (st + d_len d) (fun v => gap (val x k v) (val y k v))))%R).
  { destruct (Nat.eq_dec (d_len d) 0) as [E0|E0].
    - unfold d_suf. rewrite prod_snoc, E0, Nat.mul_0_r. cbn [rsum]. apply rsum_pos. intros. apply rsum_pos. intros; apply gap_pos.
    - rewrite (rsum_ext (prod (d_suf d)) _ (fun u => gap (val x (r0 + u / d_len d)%nat (st + u mod d_len d)%nat) (val y (r0 + u / d_len d)%nat (st + u mod d_len d)%nat))).
      + unfold d_suf. rewrite prod_snoc, (PropEnergy2d.rsum_flat (prod (d_pre d)) (d_len d) (fun k v => gap (val x (r0 + k)%nat (st + v)%nat) (val y (r0 + k)%nat (st + v)%nat))) by lia.
        rewrite rsum_cat. match goal with |- (_ <= ?A + _)%R => assert (0 <= A)%R by (apply rsum_pos; intros; apply rsum_pos; intros; apply gap_pos) end.
        match goal with |- (?B <= _ + ?D)%R => enough (B <= D)%R by lra end.
        apply rsum_le. intros k _. rewrite rsum_cat. match goal with |- (_ <= ?A + _)%R => assert (0 <= A)%R by (apply rsum_pos; intros; apply gap_pos) end. lra.
      + intros u Hu. destruct (part_sample n d x u Hok Hx Hu) as (Q1 & Q2 & ->). destruct (part_sample n d y u Hok Hy Hu) as (_ & _ & ->). now rewrite !V by assumption. }
  eapply Rle_trans; [exact H1|]. clear H1 V. unfold val.
  eapply Rle_trans; [apply (joint_value_close2 (s_phi b) ls a (t_phi_fr t) Nfr lsf af j2 (G (pad x)) (G (pad y)) psi); assumption|].
  assert (HG : exists g, (mdist Nfr cc (G (pad x)) (G (pad y)) <= 3 * E * g)%R /\
    part_gain2 (joint_key (q_n (d_q d))) = (g * l1 (idft (lev psi 0)) ^ 2 * time_gain2 (s_phi b) a j2 cc * freq_gain2 (t_phi_fr t) Nfr af (sgnR (f_xi psi)) (fr_rate lsf af psi))%R).
  { destruct Hsrc as [nf psi E1|n2 nf f2 psi E1 E2].
    - eexists. split; [apply (rows1_close2 _ _ _ N ls a HT); [lra|apply pad_row_length|exact Hc]|]. unfold part_gain2. now rewrite E1.
    - eexists. split; [apply (rows2_close2 (s_phi b) _ (s_psi2 b) N ls a HT); [lra|eapply nth_error_In; exact E1|apply pad_row_length|exact Hc]|].
      unfold part_gain2. now rewrite E1, E2. }
  destruct HG as (g & Hg & ->). rewrite <- !Rmult_assoc.
  apply Rmult_le_compat_r; [apply freq_gain2_pos|]. apply Rmult_le_compat_r; [apply time_gain2_pos|]. apply Rmult_le_compat_r; [apply pow2_ge_0|]. exact Hg.
Qed.
Definition zeroth_gain2 : R := match a with Local => (l1 (idft (lev (s_phi b) 0)) ^ 2)%R | Global => INR N | NoAvg => 1%R end.
Lemma part0_close2 E x y V : List.length x = n -> (0 <= E)%R -> close2 E x y ->
  (rsum V (fun u => gap (at_ (concat (d_gen (part0 t n l r ls a) x)) u) (at_ (concat (d_gen (part0 t n l r ls a) y)) u)) <= 3 * E * zeroth_gain2)%R.
Proof.
  intros Hx HE Hc. cbn [part0 d_gen concat]. rewrite !app_nil_r. pose proof (jr_time _ _ _ _ _ _ _ _ _ _ _ Hr) as HT. pose proof (jt_ls _ _ _ _ _ _ HT) as Hls.
  pose proof (jt_N _ _ _ _ _ _ HT) as HN.
  apply (close2_pad E l r n) in Hc; [|apply (jr_l _ _ _ _ _ _ _ _ _ _ _ Hr)|apply (jr_r _ _ _ _ _ _ _ _ _ _ _ Hr)|exact Hx].
  assert (SL : forall B i j (p q : list C), close2 B p q -> close2 B (slice i j p) (slice i j q)).
  { intros B i j p q Hpq. pose proof (close2_slice B i j p q Hpq) as Hs. destruct Hpq as [E1 E2]. split; [now rewrite !slice_length, E1|]. unfold dist2. rewrite slice_length.
    eapply Rle_trans; [|exact Hs]. apply (rsum_more _ _ (fun t => gap (at_ (slice i j p) t) (at_ (slice i j q) t))); [intros; apply gap_pos|lia]. }
  apply close2_any. unfold zeroth, zeroth_gain2. destruct a.
  - pose proof (jt_phi _ _ _ _ _ _ HT eq_refl) as Hp.
    rewrite !r_low_spec by first [assumption | apply (jt_div _ _ _ _ _ _ HT) | apply pad_row_length].
    apply SL. apply close2_lowpass; [rewrite pad_row_length; exact HN|rewrite (level_length _ _ _ Hp), pad_row_length; reflexivity|exact Hc].
  - rewrite !osum_at. apply close2_sum1 in Hc. rewrite pad_row_length in Hc at 1. exact Hc.
  - rewrite Rmult_1_r. now apply SL.
Qed.
End Parts.
