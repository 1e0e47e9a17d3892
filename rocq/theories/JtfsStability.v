(** What scaling a signal, or changing it a little, does to the joint time-frequency coefficients. *)
From Coq Require Import String Reals ZArith QArith List Bool Arith Lia Lra.
From Coquelicot Require Import Complex.
From Verif Require Import Base BaseProofs NdArray Backend Core1d Utils1d Utils1dProofs Frontend1d Frontend1dProofs NdProofs StackProofs Rows1d FrontRows Mats
  Factory1d FactoryProofs ComplexOps FilterBank1d FilterBank1dProofs Construct1d Shape1d PropFilters1d PropShapes1d Dft Conv1d Value1d Tabulated1d PropNumerics1d Invariance1d Stability1d
  Jtfs JtfsFront JtfsProofs JtfsKeys JtfsRows JtfsFmt JtfsFull JtfsConstruct JtfsMeta JtfsTotal PropJtfs JtfsReady JtfsRun SpecJtfsValue JtfsValue JtfsCoef PropJtfsValues
  JtfsParts.
Import ListNotations.
Local Open Scope nat_scope.

Lemma at_scal c x u : at_ (map (Cmult c) x) u = (c * at_ x u)%C.
Proof.
  destruct (Nat.lt_ge_cases u (List.length x)) as [H|H]; [now apply at_map_C|].
  rewrite !at_over by (rewrite ?map_length; exact H). ring.
Qed.
Lemma at_row_scal c (rows : list (list C)) n u : at_ (nth n (map (map (Cmult c)) rows) []) u = (c * at_ (nth n rows []) u)%C.
Proof. change (@nil C) with (map (Cmult c) []) at 1. rewrite map_nth. apply at_scal. Qed.
Lemma map_scal_seq c (f g : nat -> C) n : (forall u, f u = (c * g u)%C) -> map f (seq 0 n) = map (Cmult c) (map g (seq 0 n)).
Proof. intros H. rewrite map_map. apply map_ext. exact H. Qed.

Section Scale.
Context {P : Type}.
Notation filter := (Core1d.filter (nd C) P).
Variables (phi : filter) (psi1 : list filter) (ls : Z) (a : avg).
Variables (phi_fr : filter) (Nfr : nat) (lsf : Z) (af : avg).

Lemma rows1_scal c x : rows1 phi psi1 ls a (map (Cmult (RtoC c)) x) = map (map (Cmult (RtoC (Rabs c)))) (rows1 phi psi1 ls a x).
Proof. unfold rows1. rewrite map_map. apply map_ext. intros f1. unfold U1. now rewrite envelope_scal, lowpass_scal. Qed.
Lemma rows2_scal c f2 x : rows2 psi1 ls a f2 (map (Cmult (RtoC c)) x) = map (map (Cmult (RtoC (Rabs c)))) (rows2 psi1 ls a f2 x).
Proof.
  unfold rows2. rewrite map_map. apply map_ext. intros f1. unfold U1, sampled_conv. rewrite envelope_scal, map_length.
  apply map_scal_seq. intros u. apply cconv_scal.
Qed.
Section Nonneg.
Variable c : R.
Hypothesis Hc : (0 <= c)%R.
Notation sc := (map (Cmult (RtoC c))).
Lemma modulus_scal rows (psi : filter) p u : joint_modulus Nfr (map sc rows) psi p u = (RtoC c * joint_modulus Nfr rows psi p u)%C.
Proof.
  unfold joint_modulus. replace (column Nfr (map sc rows) u) with (sc (column Nfr rows u)).
  - rewrite cconv_scal, Cmod_mult, Cmod_R, Rabs_right by lra. now rewrite RtoC_mult.
  - unfold column. symmetry. apply map_scal_seq. intros n1. apply at_row_scal.
Qed.
Lemma sum_scal x : csum (List.length (sc x)) (at_ (sc x)) = (RtoC c * csum (List.length x) (at_ x))%C.
Proof. rewrite map_length, <- csum_scal. apply csum_ext. intros. apply at_scal. Qed.
Lemma time_average_scal j2 row : time_average phi ls a j2 (sc row) = sc (time_average phi ls a j2 row).
Proof.
  unfold time_average. destruct a; try reflexivity.
  - destruct j2; [apply lowpass_scal|reflexivity].
  - cbn [map]. now rewrite sum_scal.
Qed.
Lemma averaged_row_scal j2 rows (psi : filter) kf n r : averaged_row phi ls a Nfr j2 (map sc rows) psi kf n r = sc (averaged_row phi ls a Nfr j2 rows psi kf n r).
Proof. unfold averaged_row. rewrite <- time_average_scal. f_equal. apply map_scal_seq. intros u. apply modulus_scal. Qed.
Lemma freq_average_scal j col : freq_average phi_fr lsf af j (sc col) = sc (freq_average phi_fr lsf af j col).
Proof. unfold freq_average. destruct af; [apply lowpass_scal|cbn [map]; now rewrite sum_scal|reflexivity]. Qed.
Lemma joint_value_scal j2 rows (psi : filter) spin kf n r v :
  joint_value phi ls a phi_fr Nfr lsf af j2 (map sc rows) psi spin kf n r v = (RtoC c * joint_value phi ls a phi_fr Nfr lsf af j2 rows psi spin kf n r v)%C.
Proof.
  unfold joint_value. destruct (spin =? 0)%Z; [now rewrite averaged_row_scal, at_scal|].
  rewrite <- at_scal, <- freq_average_scal. do 2 f_equal. apply map_scal_seq. intros p. now rewrite averaged_row_scal, at_scal.
Qed.
End Nonneg.

(** ** Closeness *)
Lemma close_anywhere B x y u : (0 <= B)%R -> close B x y -> (Cmod (at_ x u - at_ y u)%C <= B)%R.
Proof.
  intros HB [Hl Hc]. destruct (Nat.lt_ge_cases u (List.length x)) as [H|H]; [now apply Hc|].
  rewrite !at_over by (rewrite ?Hl; exact H). replace (RtoC 0 - RtoC 0)%C with (RtoC 0) by ring. now rewrite Cmod_0.
Qed.
Lemma close_map_seq B (f g : nat -> C) n : (forall u, u < n -> (Cmod (f u - g u)%C <= B)%R) -> close B (map f (seq 0 n)) (map g (seq 0 n)).
Proof.
  intros H. split; [now rewrite !map_length|]. rewrite map_length, seq_length. intros u Hu. rewrite !at_map_seq by exact Hu. now apply H.
Qed.
(** Matrices, row by row. *)
Definition close_rows (B : R) (X Y : list (list C)) : Prop := forall n u, (Cmod (at_ (nth n X []) u - at_ (nth n Y []) u)%C <= B)%R.

Lemma modulus_close B X Y (psi : filter) p u : close_rows B X Y -> 0 < Nfr -> level_ok psi 0 Nfr ->
  (Cmod (joint_modulus Nfr X psi p u - joint_modulus Nfr Y psi p u)%C <= B * l1 (idft (lev psi 0)))%R.
Proof.
  intros HB HN Hl. unfold joint_modulus. rewrite <- RtoC_minus, Cmod_R. eapply Rle_trans; [apply Cmod_sub_abs|].
  assert (EX : forall Z0, List.length (column Nfr Z0 u) = Nfr) by (intros; unfold column; now rewrite map_length, seq_length).
  apply cconv_close; rewrite ?EX, ?idft_length, ?(level_length _ _ _ Hl); try assumption; try reflexivity.
  apply close_map_seq. intros n1 _. apply HB.
Qed.
(** Gains of the averages. *)
Definition time_gain (j2 : option Z) (n : nat) : R :=
  match a, j2 with Global, _ => INR n | Local, Some j => l1 (idft (lev phi j)) | _, _ => 1%R end.
Definition freq_gain (spin kf : Z) : R :=
  if (spin =? 0)%Z then 1%R else
  match af with Global => INR (Nfr / 2 ^ Z.to_nat kf) | Local => l1 (idft (lev phi_fr kf)) | NoAvg => 1%R end.
Lemma l1_nonneg h : (0 <= l1 h)%R.
Proof. unfold l1. rewrite rsum_csum. cbn [RtoC fst]. apply rsum_pos. intros; apply Cmod_ge_0. Qed.
Lemma time_gain_pos j2 n : (0 <= time_gain j2 n)%R.
Proof. unfold time_gain. destruct a; [destruct j2; [apply l1_nonneg|lra]|apply pos_INR|lra]. Qed.
Lemma freq_gain_pos spin kf : (0 <= freq_gain spin kf)%R.
Proof. unfold freq_gain. destruct (_ =? _)%Z; [lra|]. destruct af; [apply l1_nonneg|apply pos_INR|lra]. Qed.

Lemma sum_close B x y : close B x y -> close (B * INR (List.length x)) [csum (List.length x) (at_ x)] [csum (List.length y) (at_ y)].
Proof.
  intros H. split; [reflexivity|]. intros [|u] Hu; [|cbn in Hu; lia]. unfold at_ at 1 3. cbn [nth]. rewrite Rmult_comm. now apply close_sum.
Qed.
Lemma averaged_row_close B j2 X Y (psi : filter) kf n r : close_rows B X Y -> 0 < Nfr -> level_ok psi 0 Nfr -> 0 < n ->
  (forall j, a = Local -> j2 = Some j -> level_ok phi j n) ->
  close (B * l1 (idft (lev psi 0)) * time_gain j2 n) (averaged_row phi ls a Nfr j2 X psi kf n r) (averaged_row phi ls a Nfr j2 Y psi kf n r).
Proof.
  intros HB HN Hl Hn Hj. unfold averaged_row, time_average, time_gain.
  set (B1 := (B * l1 (idft (lev psi 0)))%R).
  assert (H : close B1 (map (fun u => joint_modulus Nfr X psi (2 ^ Z.to_nat kf * r) u) (seq 0 n)) (map (fun u => joint_modulus Nfr Y psi (2 ^ Z.to_nat kf * r) u) (seq 0 n))).
  { apply close_map_seq. intros u _. now apply modulus_close. }
  destruct a.
  - destruct j2 as [j|]; [|rewrite Rmult_1_r; exact H]. specialize (Hj j eq_refl eq_refl).
    apply close_lowpass; [rewrite map_length, seq_length; exact Hn|rewrite (level_length _ _ _ Hj), map_length, seq_length; reflexivity|exact H].
  - apply sum_close in H. rewrite map_length, seq_length in H at 1. exact H.
  - rewrite Rmult_1_r. exact H.
Qed.
Lemma joint_value_close B j2 X Y (psi : filter) spin kf n r v : (0 <= B)%R -> close_rows B X Y -> 0 < Nfr -> level_ok psi 0 Nfr -> 0 < n ->
  (forall j, a = Local -> j2 = Some j -> level_ok phi j n) -> 0 < Nfr / 2 ^ Z.to_nat kf ->
  (af = Local -> spin <> 0%Z -> level_ok phi_fr kf (Nfr / 2 ^ Z.to_nat kf)) ->
  (Cmod (joint_value phi ls a phi_fr Nfr lsf af j2 X psi spin kf n r v - joint_value phi ls a phi_fr Nfr lsf af j2 Y psi spin kf n r v)%C
   <= B * l1 (idft (lev psi 0)) * time_gain j2 n * freq_gain spin kf)%R.
Proof.
  intros HB HX HN Hl Hn Hj Hk Hf. set (B1 := (B * l1 (idft (lev psi 0)) * time_gain j2 n)%R).
  assert (H1 : (0 <= B1)%R) by (unfold B1; repeat apply Rmult_le_pos; [exact HB|apply l1_nonneg|apply time_gain_pos]).
  assert (HR : forall p, (Cmod (at_ (averaged_row phi ls a Nfr j2 X psi kf n p) v - at_ (averaged_row phi ls a Nfr j2 Y psi kf n p) v)%C <= B1)%R).
  { intros p. apply close_anywhere; [exact H1|]. now apply averaged_row_close. }
  pose proof (freq_gain_pos spin kf) as HG. unfold joint_value, freq_gain in *. destruct (Z.eqb_spec spin 0) as [|Hs]; [rewrite Rmult_1_r; apply HR|].
  assert (Hc := close_map_seq B1 _ _ (Nfr / 2 ^ Z.to_nat kf) (fun p _ => HR p)).
  apply close_anywhere; [now apply Rmult_le_pos|]. unfold freq_average. destruct af.
  - specialize (Hf eq_refl Hs). apply close_lowpass; [rewrite map_length, seq_length; exact Hk|rewrite (level_length _ _ _ Hf), map_length, seq_length; reflexivity|exact Hc].
  - apply sum_close in Hc. rewrite map_length, seq_length in Hc at 1. exact Hc.
  - rewrite Rmult_1_r. exact Hc.
Qed.
End Scale.

(** ** The rows that the frequential filters are applied to *)
Definition max_of {A} (f : A -> R) (l : list A) : R := fold_right (fun x m => Rmax (f x) m) 0%R l.
Lemma max_of_pos {A} (f : A -> R) l : (0 <= max_of f l)%R.
Proof. induction l as [|x l IH]; cbn [max_of fold_right]; [lra|]. eapply Rle_trans; [exact IH|apply Rmax_r]. Qed.
Lemma max_of_ge {A} (f : A -> R) l x : In x l -> (f x <= max_of f l)%R.
Proof.
  induction l as [|y l IH]; [intros []|]. cbn [max_of fold_right]. intros [E|H]; [subst; apply Rmax_l|]. eapply Rle_trans; [now apply IH|apply Rmax_r].
Qed.

Section Rows.
Context {P : Type}.
Notation filter := (Core1d.filter (nd C) P).
Variables (phi : filter) (psi1 psi2 : list filter) (N : nat) (ls : Z) (a : avg).
Hypothesis (Ht : jadm_time phi psi1 psi2 N ls (is_local_avg a)).

Lemma rate1_kk (f1 : filter) : rate1 ls a f1 = kk ls (is_local_avg a) f1.
Proof. unfold rate1, kk. now destruct a. Qed.
(** Largest gain over the rows. *)
Definition rows1_gain : R := max_of (fun f1 => l1 (idft (lev f1 0)) * l1 (idft (lev phi (rate1 ls a f1))))%R psi1.
Definition rows2_gain (f2 : filter) : R :=
  max_of (fun f1 => l1 (idft (lev f1 0)) * l1 (idft (lev f2 (rate1 ls a f1))))%R (List.filter (fun f1 => (f_j f1 <? f_j f2)%Z) psi1).

Lemma U1_close D x y f1 : In f1 psi1 -> List.length x = N -> close D x y ->
  close (D * l1 (idft (lev f1 0))) (U1 ls a f1 x) (U1 ls a f1 y) /\ List.length (U1 ls a f1 x) = N / p2 (rate1 ls a f1).
Proof.
  intros H1 Hx Hc. destruct (jt_psi1 _ _ _ _ _ _ Ht f1 H1) as (_ & L & _). pose proof (jt_N _ _ _ _ _ _ Ht).
  unfold U1. split; [apply close_envelope; [lia|rewrite (level_length _ _ _ L); congruence|exact Hc]|]. rewrite sampled_envelope_length, Hx. reflexivity.
Qed.
Lemma close_rows_map D {A} (g : list C -> A -> list C) (l : list A) x y : (0 <= D)%R -> (forall f, In f l -> close D (g x f) (g y f)) -> close_rows D (map (g x) l) (map (g y) l).
Proof.
  intros HD H n u. destruct (Nat.lt_ge_cases n (List.length l)) as [Hn|Hn].
  - destruct l as [|d l']; [cbn in Hn; lia|]. rewrite !(nth_map_any _ _ _ _ d) by exact Hn. apply close_anywhere; [exact HD|]. apply H, nth_In, Hn.
  - rewrite !nth_overflow by (rewrite map_length; exact Hn). replace (at_ [] u - at_ [] u)%C with (RtoC 0) by ring. now rewrite Cmod_0.
Qed.
Lemma close_weaken D D' x y : (D <= D')%R -> close D x y -> close D' x y.
Proof. intros H [Hl Hc]. split; [exact Hl|]. intros u Hu. eapply Rle_trans; [now apply Hc|exact H]. Qed.

Lemma rows1_close D x y : (0 <= D)%R -> List.length x = N -> close D x y -> close_rows (D * rows1_gain) (rows1 phi psi1 ls a x) (rows1 phi psi1 ls a y).
Proof.
  intros HD Hx Hc. unfold rows1.
  apply (close_rows_map (D * rows1_gain) (fun x f1 => sampled_lowpass (U1 ls a f1 x) (lev phi (rate1 ls a f1)) (2 ^ Z.to_nat (ls - rate1 ls a f1)))).
  - apply Rmult_le_pos; [exact HD|apply max_of_pos].
  - intros f1 H1. destruct (U1_close D x y f1 H1 Hx Hc) as [U L].
    destruct (kk_facts phi psi1 psi2 N ls (is_local_avg a) Ht f1 H1) as (_ & _ & _ & K4 & _).
    destruct (jt_psi1 _ _ _ _ _ _ Ht f1 H1) as (_ & _ & _ & Lp). rewrite <- rate1_kk in *.
    eapply close_weaken; [|apply close_lowpass; [rewrite L; exact K4|rewrite (level_length _ _ _ Lp); congruence|exact U]].
    rewrite Rmult_assoc. apply Rmult_le_compat_l; [exact HD|]. apply (max_of_ge (fun f1 => l1 (idft (lev f1 0)) * l1 (idft (lev phi (rate1 ls a f1))))%R _ _ H1).
Qed.
Lemma rows2_close D f2 x y : (0 <= D)%R -> In f2 psi2 -> List.length x = N -> close D x y ->
  close_rows (D * rows2_gain f2) (rows2 psi1 ls a f2 x) (rows2 psi1 ls a f2 y).
Proof.
  intros HD H2 Hx Hc. unfold rows2.
  apply (close_rows_map (D * rows2_gain f2) (fun x f1 => sampled_conv (U1 ls a f1 x) (lev f2 (rate1 ls a f1)) (2 ^ Z.to_nat (f_j f2 - rate1 ls a f1)))).
  - apply Rmult_le_pos; [exact HD|apply max_of_pos].
  - intros f1 Hf1. pose proof Hf1 as Hin. apply filter_In in Hf1 as [H1 Hj]. apply Z.ltb_lt in Hj. destruct (U1_close D x y f1 H1 Hx Hc) as [U L].
    destruct (kk_facts phi psi1 psi2 N ls (is_local_avg a) Ht f1 H1) as (_ & _ & _ & K4 & _).
    destruct (jt_psi2 _ _ _ _ _ _ Ht f1 f2 H1 H2 Hj) as (Lp & _). rewrite <- rate1_kk in *.
    pose proof (proj1 U) as El. split; [unfold sampled_conv; now rewrite !map_length, El|].
    unfold sampled_conv. rewrite map_length, seq_length, El. intros u Hu. rewrite !at_map_seq by exact Hu.
    eapply Rle_trans; [apply cconv_close; [rewrite L; exact K4|rewrite idft_length, (level_length _ _ _ Lp); congruence|exact U]|].
    rewrite Rmult_assoc. apply Rmult_le_compat_l; [exact HD|].
    apply (max_of_ge (fun f1 => l1 (idft (lev f1 0)) * l1 (idft (lev f2 (rate1 ls a f1))))%R _ _ Hin).
Qed.
End Rows.

(** ** The parts of a call *)
Section Parts.
Variables (t : jtfs (nd C) R) (n l r mx : nat) (ls : Z) (a : avg) (Nfr : nat) (lsf : Z) (af : avg).
Hypothesis (Hr : jready sgnR t n l r mx ls a Nfr lsf af).
Notation b := (t_base t).
Notation N := (l + n + r).
Notation ds := (all_parts t n l r ls a Nfr lsf af).
Notation pad := (pad_reflect_row complex_ops l r n).
(** The key of the path of format 'joint' that a path belongs to. *)
Definition joint_key (q : list nat) : list nat := if String.eqb (t_format t) "joint" then q else tl q.

Lemma part_value d : t_format t = "joint"%string \/ t_format t = "time"%string -> In d ds ->
  exists psi j2 G c m r0 start, source t N ls a (joint_key (q_n (d_q d))) psi j2 G c m /\ In psi (t_psis_fr t) /\
    (forall j, a = Local -> j2 = Some j -> level_ok (s_phi b) j c) /\ 0 < c /\
    (forall row k tau, List.length row = n -> k < prod (d_pre d) -> tau < d_len d ->
      at_ (nth k (d_gen d row) []) tau =
      joint_value (s_phi b) ls a (t_phi_fr t) Nfr lsf af j2 (G (pad row)) psi (sgnR (f_xi psi)) (fr_rate lsf af psi) c (r0 + k) (start + tau)).
Proof.
  intros Hf Hd. apply in_flat_map in Hd as (e & He & Hd).
  destruct (entry_spec t n l r mx ls a Nfr lsf af Hr e He) as (psi & j2 & G & c & m & Hsrc & Hcn & Hm0 & Hpsi & Hsp & Hjf & Hn1 & Hj2 & Hem & _ & _ & _ & Hval).
  pose proof (entries_fmt complex_ops complex_ops_ok sgnR t _ _ _ _ _ _ _ _ _ Hr e He) as HF.
  assert (Hc : 0 < c) by (rewrite Hcn; apply (fo_n _ _ _ _ _ _ _ _ _ _ HF)).
  assert (Hlev : forall j, a = Local -> j2 = Some j -> level_ok (s_phi b) j c).
  { intros j Ea Ej. rewrite Hj2 in Ej. unfold j2_of in Ej. destruct (second (e_q e)) eqn:Es; [|discriminate]. injection Ej as <-. rewrite Hcn.
    apply (fo_time _ _ _ _ _ _ _ _ _ _ HF Ea Es). }
  pose proof (fun row => jmat_ok complex_ops complex_ops_ok sgnR t _ _ _ _ _ _ _ _ _ Hr e row He) as Hok.
  destruct (restride_same lsf af (e_q e)) as (R1 & R2 & R3 & R4 & R5).
  unfold parts in Hd. destruct Hf as [Hf|Hf]; rewrite Hf in Hd; cbn [String.eqb Ascii.eqb Bool.eqb] in Hd.
  - destruct Hd as [<-|[]]. set (q := joint_q lsf af e) in *.
    exists psi, j2, G, c, m, 0, (match a with Global => 0 | _ => jlo l (tres ls a q) end). cbn [d_q d_pre d_len d_gen].
    unfold joint_key. rewrite Hf. cbn [String.eqb Ascii.eqb Bool.eqb]. change (q_n q) with (q_n (restride lsf af (e_q e))). rewrite R2.
    split; [exact Hsrc|]. split; [exact Hpsi|]. split; [exact Hlev|]. split; [exact Hc|]. intros row k tau Hrow Hk Ht.
    assert (Hk' : k < jrows t lsf af e) by (cbn in Hk; lia). destruct (Hok row) as [O1 O2].
    rewrite (nth_map_any _ _ _ _ []) by (rewrite O1; exact Hk').
    assert (Hlen : List.length (nth k (jmat complex_ops t n l r ls a lsf af e row) []) = jcols ls a e).
    { rewrite Forall_forall in O2. apply O2, nth_In. rewrite O1. exact Hk'. }
    destruct (tcut_at n l ls a q _ _ tau Hlen Ht) as [T1 T2]. rewrite T1, <- Hsp. cbn [Nat.add]. apply Hval; assumption.
  - apply in_map_iff in Hd as (k & <- & Hk). set (q := time_q lsf af e k) in *.
    exists psi, j2, G, c, m, k, (match a with Global => 0 | _ => jlo l (tres ls a q) end). cbn [d_q d_pre d_len d_gen].
    unfold joint_key. rewrite Hf. cbn [String.eqb Ascii.eqb Bool.eqb]. assert (Eq : tl (q_n q) = q_n (e_q e)) by (unfold q, time_q, label; cbn [set_n q_n tl]; exact R2). rewrite Eq.
    split; [exact Hsrc|]. split; [exact Hpsi|]. split; [exact Hlev|]. split; [exact Hc|]. intros row k' tau Hrow Hk' Ht.
    assert (k' = 0) by (cbn in Hk'; lia). subst k'. cbn [nth]. rewrite Nat.add_0_r.
    assert (Hkr : k < jrows t lsf af e).
    { assert (P1 : part_ok n (mk_part q [] (tcut_len n l ls a q (jcols ls a e)) (fun row => [tcut n l ls a q (nth k (jmat complex_ops t n l r ls a lsf af e row) [])]))).
      { pose proof (parts_ok t n l r mx ls a Nfr lsf af Hr e He (or_intror Hf)) as FP. rewrite Forall_forall in FP. apply FP.
        unfold parts. rewrite Hf. cbn [String.eqb Ascii.eqb Bool.eqb]. apply in_map_iff. exists k. split; [reflexivity|exact Hk]. }
      apply in_seq in Hk. pose proof (entries_labels complex_ops complex_ops_ok sgnR t _ _ _ _ _ _ _ _ _ Hr e He) as HL.
      pose proof (fo_s _ _ _ _ _ _ _ _ _ _ HF) as Hs. pose proof (fo_max _ _ _ _ _ _ _ _ _ _ HF) as Hm.
      unfold jrows, ulen, joint_array. rewrite Hf. cbn [String.eqb Ascii.eqb Bool.eqb]. rewrite andb_false_r.
      unfold nlabels in *. set (s := estride lsf af (e_q e)) in *. set (mm := q_n1_max (e_q e)) in *.
      assert ((mm + s - 1) / s <= 1 + mm / s)%Z.
      { replace (1 + mm / s)%Z with ((mm + 1 * s) / s)%Z by (rewrite Z.div_add by lia; lia). apply Z.div_le_mono; lia. }
      assert (0 <= mm / s)%Z by (apply Z.div_pos; lia). lia. }
    destruct (Hok row) as [O1 O2].
    assert (Hlen : List.length (nth k (jmat complex_ops t n l r ls a lsf af e row) []) = jcols ls a e).
    { rewrite Forall_forall in O2. apply O2, nth_In. rewrite O1. exact Hkr. }
    destruct (tcut_at n l ls a q _ _ tau Hlen Ht) as [T1 T2]. rewrite T1, <- Hsp. apply Hval; assumption.
Qed.

(** The samples of a part, in the order in which they are stored. *)
Lemma part_sample d row u : part_ok n d -> List.length row = n -> u < prod (d_suf d) ->
  u / d_len d < prod (d_pre d) /\ u mod d_len d < d_len d /\ at_ (concat (d_gen d row)) u = at_ (nth (u / d_len d) (d_gen d row) []) (u mod d_len d).
Proof.
  intros Hd Hrow Hu. unfold d_suf in Hu. rewrite prod_snoc in Hu. assert (HL : d_len d <> 0) by (intros E; rewrite E in Hu; lia).
  destruct (Hd row Hrow) as [D1 D2].
  assert (H1 : u / d_len d < prod (d_pre d)) by (apply Nat.div_lt_upper_bound; lia). pose proof (Nat.mod_upper_bound u _ HL) as H2.
  split; [exact H1|]. split; [exact H2|]. unfold at_. rewrite (Nat.div_mod u (d_len d) HL) at 1. rewrite (Nat.mul_comm (d_len d)).
  rewrite nth_concat with (m := d_len d); [reflexivity|exact D2|rewrite D1; exact H1|exact H2].
Qed.

(** Scaling. *)
Lemma part_scal d c row : t_format t = "joint"%string \/ t_format t = "time"%string -> In d ds -> List.length row = n ->
  concat (d_gen d (map (Cmult (RtoC c)) row)) = map (Cmult (RtoC (Rabs c))) (concat (d_gen d row)).
Proof.
  intros Hf Hd Hrow. pose proof (all_parts_ok t n l r mx ls a Nfr lsf af Hr Hf) as Hok. rewrite Forall_forall in Hok. specialize (Hok d Hd).
  assert (Hrow' : List.length (map (Cmult (RtoC c)) row) = n) by now rewrite map_length.
  assert (HL : forall z, List.length z = n -> List.length (concat (d_gen d z)) = prod (d_suf d)).
  { intros z Hz. destruct (Hok z Hz) as [D1 D2]. rewrite (concat_len (d_len d)) by exact D2. unfold d_suf. rewrite prod_snoc, D1. reflexivity. }
  apply list_ext; [rewrite map_length, !HL by assumption; reflexivity|]. rewrite HL by exact Hrow'. intros u Hu. rewrite at_scal.
  destruct (part_sample d row u Hok Hrow Hu) as (Q1 & Q2 & ->). destruct (part_sample d _ u Hok Hrow' Hu) as (_ & _ & ->).
  destruct (part_value d Hf Hd) as (psi & j2 & G & cc & m & r0 & st & Hsrc & _ & _ & _ & V). rewrite !V by assumption.
  rewrite pad_map by first [assumption | apply (jr_l _ _ _ _ _ _ _ _ _ _ _ Hr) | apply (jr_r _ _ _ _ _ _ _ _ _ _ _ Hr)].
  assert (EG : G (map (Cmult (RtoC c)) (pad row)) = map (map (Cmult (RtoC (Rabs c)))) (G (pad row))).
  { destruct Hsrc; [apply rows1_scal|apply rows2_scal]. }
  rewrite EG. apply joint_value_scal. apply Rabs_pos.
Qed.
Lemma part0_scal c row : List.length row = n ->
  concat (d_gen (part0 t n l r ls a) (map (Cmult (RtoC c)) row)) = map (Cmult (RtoC c)) (concat (d_gen (part0 t n l r ls a) row)).
Proof.
  intros Hrow. cbn [part0 d_gen concat]. rewrite !app_nil_r. pose proof (jr_time _ _ _ _ _ _ _ _ _ _ _ Hr) as HT. pose proof (jt_ls _ _ _ _ _ _ HT) as Hls.
  pose proof (jt_N _ _ _ _ _ _ HT) as HN. unfold zeroth.
  rewrite pad_map by first [assumption | apply (jr_l _ _ _ _ _ _ _ _ _ _ _ Hr) | apply (jr_r _ _ _ _ _ _ _ _ _ _ _ Hr)].
  destruct a.
  - rewrite !r_low_spec by first [assumption | apply (jt_phi _ _ _ _ _ _ HT); reflexivity | apply (jt_div _ _ _ _ _ _ HT) | rewrite ?map_length; apply pad_row_length].
    now rewrite lowpass_scal, slice_map.
  - cbn [map]. f_equal. rewrite !osum_at, map_length, <- csum_scal. apply csum_ext. intros. apply at_scal.
  - apply slice_map.
Qed.

(** Closeness. *)
Definition part_gain (key : list nat) : R :=
  let tail f psi j2 c := (f * l1 (idft (lev psi 0)) * time_gain (s_phi b) a j2 c * freq_gain (t_phi_fr t) Nfr af (sgnR (f_xi psi)) (fr_rate lsf af psi))%R in
  match key with
  | [nf] => match nth_error (List.filter (fun f => (0 <=? sgnR (f_xi f))%Z) (t_psis_fr t)) nf with
            | Some psi => tail (rows1_gain (s_phi b) (s_psi1 b) ls a) psi None (N / 2 ^ Z.to_nat ls)
            | None => 0%R end
  | [n2; nf] => match nth_error (s_psi2 b) n2, nth_error (t_psis_fr t) nf with
                | Some f2, Some psi => tail (rows2_gain (s_psi1 b) ls a f2) psi (Some (f_j f2)) (N / 2 ^ Z.to_nat (f_j f2))
                | _, _ => 0%R end
  | _ => 0%R
  end.
Lemma part_close d D x y u : t_format t = "joint"%string \/ t_format t = "time"%string -> In d ds -> List.length x = n -> (0 <= D)%R -> close D x y ->
  u < prod (d_suf d) ->
  (Cmod (at_ (concat (d_gen d x)) u - at_ (concat (d_gen d y)) u)%C <= D * part_gain (joint_key (q_n (d_q d))))%R.
Proof.
  intros Hf Hd Hx HD Hc Hu. pose proof (all_parts_ok t n l r mx ls a Nfr lsf af Hr Hf) as Hok. rewrite Forall_forall in Hok. specialize (Hok d Hd).
  assert (Hy : List.length y = n) by (rewrite (proj1 Hc); exact Hx).
  destruct (part_sample d x u Hok Hx Hu) as (Q1 & Q2 & ->). destruct (part_sample d y u Hok Hy Hu) as (_ & _ & ->).
  destruct (part_value d Hf Hd) as (psi & j2 & G & cc & m & r0 & st & Hsrc & Hpsi & Hlev & Hcc & V). rewrite !V by assumption. clear V.
  pose proof (jr_time _ _ _ _ _ _ _ _ _ _ _ Hr) as HT. pose proof (jr_fr _ _ _ _ _ _ _ _ _ _ _ Hr) as HF.
  apply (close_pad D l r n) in Hc; [|apply (jr_l _ _ _ _ _ _ _ _ _ _ _ Hr)|apply (jr_r _ _ _ _ _ _ _ _ _ _ _ Hr)|exact Hx].
  destruct (jf_psi _ _ _ _ _ _ HF psi Hpsi) as (F1 & F2 & F3). rewrite kf_rate in F3.
  assert (HNfr : 0 < Nfr). { pose proof (jf_room _ _ _ _ _ _ HF). pose proof (jt_ne _ _ _ _ _ _ HT). destruct (s_psi1 b); [congruence|cbn in *; lia]. }
  assert (Hk : 0 < Nfr / 2 ^ Z.to_nat (fr_rate lsf af psi)) by (apply (div_p2_pos (fr_rate lsf af psi)); assumption).
  assert (Hphi : af = Local -> sgnR (f_xi psi) <> 0%Z -> level_ok (t_phi_fr t) (fr_rate lsf af psi) (Nfr / 2 ^ Z.to_nat (fr_rate lsf af psi))).
  { intros Ea Es. destruct (jr_aligned _ _ _ _ _ _ _ _ _ _ _ Hr Ea psi Hpsi Es) as (_ & _ & A). unfold fr_rate. rewrite Ea. exact A. }
  assert (HG : exists g, (0 <= g)%R /\ close_rows (D * g) (G (pad x)) (G (pad y)) /\
    part_gain (joint_key (q_n (d_q d))) = (g * l1 (idft (lev psi 0)) * time_gain (s_phi b) a j2 cc * freq_gain (t_phi_fr t) Nfr af (sgnR (f_xi psi)) (fr_rate lsf af psi))%R).
  { destruct Hsrc as [nf psi E|n2 nf f2 psi E1 E2].
    - eexists. split; [|split; [apply (rows1_close _ _ _ N ls a HT); [exact HD|apply pad_row_length|exact Hc]|]]; [apply max_of_pos|]. unfold part_gain. now rewrite E.
    - eexists. split; [|split; [apply (rows2_close (s_phi b) _ (s_psi2 b) N ls a HT); [exact HD|eapply nth_error_In; exact E1|apply pad_row_length|exact Hc]|]]; [apply max_of_pos|].
      unfold part_gain. now rewrite E1, E2. }
  destruct HG as (g & Hg & Hrows & ->).
  replace (D * (g * l1 (idft (lev psi 0)) * time_gain (s_phi b) a j2 cc * freq_gain (t_phi_fr t) Nfr af (sgnR (f_xi psi)) (fr_rate lsf af psi)))%R
    with (D * g * l1 (idft (lev psi 0)) * time_gain (s_phi b) a j2 cc * freq_gain (t_phi_fr t) Nfr af (sgnR (f_xi psi)) (fr_rate lsf af psi))%R by ring.
  apply joint_value_close; try assumption. apply Rmult_le_pos; assumption.
Qed.
Definition zeroth_gain : R := match a with Local => l1 (idft (lev (s_phi b) 0)) | Global => INR N | NoAvg => 1%R end.
Lemma part0_close D x y u : List.length x = n -> (0 <= D)%R -> close D x y ->
  (Cmod (at_ (concat (d_gen (part0 t n l r ls a) x)) u - at_ (concat (d_gen (part0 t n l r ls a) y)) u)%C <= D * zeroth_gain)%R.
Proof.
  intros Hx HD Hc. cbn [part0 d_gen concat]. rewrite !app_nil_r. pose proof (jr_time _ _ _ _ _ _ _ _ _ _ _ Hr) as HT. pose proof (jt_ls _ _ _ _ _ _ HT) as Hls.
  pose proof (jt_N _ _ _ _ _ _ HT) as HN.
  apply (close_pad D l r n) in Hc; [|apply (jr_l _ _ _ _ _ _ _ _ _ _ _ Hr)|apply (jr_r _ _ _ _ _ _ _ _ _ _ _ Hr)|exact Hx].
  assert (SL : forall B i j (p q : list C), close B p q -> close B (slice i j p) (slice i j q)).
  { intros B i j p q [E1 E2]. split; [now rewrite !slice_length, E1|]. rewrite slice_length. intros v Hv. unfold at_. rewrite !nth_slice by lia. apply E2. lia. }
  unfold zeroth, zeroth_gain. destruct a.
  - pose proof (jt_phi _ _ _ _ _ _ HT eq_refl) as Hp.
    rewrite !r_low_spec by first [assumption | apply (jt_div _ _ _ _ _ _ HT) | apply pad_row_length].
    apply close_anywhere; [apply Rmult_le_pos; [exact HD|apply l1_nonneg]|]. apply SL. apply close_lowpass; [rewrite pad_row_length; exact HN|rewrite (level_length _ _ _ Hp), pad_row_length; reflexivity|exact Hc].
  - apply close_anywhere; [apply Rmult_le_pos; [exact HD|apply pos_INR]|]. rewrite !osum_at. apply sum_close in Hc. rewrite pad_row_length in Hc at 1. exact Hc.
  - rewrite Rmult_1_r. apply close_anywhere; [exact HD|]. now apply SL.
Qed.
End Parts.
