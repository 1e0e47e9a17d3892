(** The matrices computed by the code are the ones of the specification. *)
From Coq Require Import String Reals ZArith List Bool Arith Lia.
From Coquelicot Require Import Complex.
From Verif Require Import Base BaseProofs NdArray Backend Core1d Utils1d Utils1dProofs Frontend1d NdProofs Rows1d FrontRows Mats
  ComplexOps FilterBank1d FilterBank1dProofs Construct1d Dft Conv1d Value1d Jtfs JtfsFront JtfsProofs JtfsRows JtfsFmt JtfsFull SpecJtfsValue.
Import ListNotations.
Local Open Scope nat_scope.

Lemma rep_firstn {A} k (l : list A) d i : i < k -> nth i (firstn k l) d = nth i l d.
Proof. revert l i. induction k as [|k IH]; intros [|x l] [|i] H; try reflexivity; try lia. cbn. apply IH. lia. Qed.
Lemma nth_tr {K} (z : K) n (M : list (list K)) u : u < n -> nth u (tr z n M) [] = map (fun row => nth u row z) M.
Proof.
  intros H. unfold tr. rewrite (nth_indep _ [] ((fun j => map (fun row => nth j row z) M) 0)) by (rewrite map_length, seq_length; exact H).
  rewrite (map_nth (fun j => map (fun row => nth j row z) M)). now rewrite seq_nth by exact H.
Qed.
Lemma nth_map_in {A B} (f : A -> B) l d d' i : i < List.length l -> nth i (map f l) d = f (nth i l d').
Proof. intros H. rewrite (nth_indep _ d (f d')) by (now rewrite map_length). apply map_nth. Qed.

Section Value.
Context {P : Type}.
Notation filter := (Core1d.filter (nd C) P).
Notation o := complex_ops.

Lemma cfilt_spec (f : filter) l k n row : List.length row = n -> level_ok f l n -> Nat.divide (p2 k) n ->
  cfilt o f l k n row = sampled_conv row (lev f l) (p2 k).
Proof.
  intros Hrow Hlev Hdiv. pose proof (lev_length f l n Hlev) as Hl.
  apply list_ext; [rewrite (cfilt_length o complex_ops_ok); unfold sampled_conv; now rewrite map_length, seq_length, Hrow|].
  rewrite (cfilt_length o complex_ops_ok). intros u Hu. unfold sampled_conv. rewrite at_map_seq by now rewrite Hrow.
  unfold cfilt, r_sub. cbn [o_fft o_ifft complex_ops]. rewrite <- Hrow. apply filter_subsample; try congruence. apply p2_pos.
Qed.

Section Rows.
Variables (phi : filter) (psi1s psi2s : list filter) (N : nat) (ls : Z) (a : avg).
Notation al := (is_local_avg a).
Hypothesis (Ht : jadm_time phi psi1s psi2s N ls al).

Lemma kk_rate1 (f1 : filter) : kk ls al f1 = rate1 ls a f1.
Proof. unfold kk, rate1. destruct a; reflexivity. Qed.
Lemma U1_spec f1 x : In f1 psi1s -> List.length x = N ->
  env1 o N ls al f1 x = U1 ls a f1 x /\ List.length (U1 ls a f1 x) = N / p2 (rate1 ls a f1).
Proof.
  intros H Hx. destruct (kk_facts phi psi1s psi2s N ls al Ht f1 H) as (K0 & K1 & K2 & K3 & _). destruct (jt_psi1 _ _ _ _ _ _ Ht f1 H) as (J0 & L0 & _).
  rewrite <- kk_rate1 in *. split.
  - unfold env1, U1. rewrite (r_env_spec f1 0 (kk ls al f1) N x Hx L0 K2). now rewrite <- kk_rate1.
  - unfold U1. rewrite sampled_envelope_length, Hx. now rewrite <- kk_rate1.
Qed.
Lemma time1_spec x : List.length x = N -> time1 o phi psi1s N ls al x = rows1 phi psi1s ls a x.
Proof.
  intros Hx. unfold time1, rows1. apply map_ext_in. intros f1 H.
  destruct (kk_facts phi psi1s psi2s N ls al Ht f1 H) as (K0 & K1 & K2 & K3 & K4 & K5). destruct (jt_psi1 _ _ _ _ _ _ Ht f1 H) as (J0 & L0 & J2 & J3).
  destruct (U1_spec f1 x H Hx) as [E1 EL]. unfold low1. rewrite E1. rewrite <- kk_rate1 in *.
  apply (r_low_spec phi (kk ls al f1) (ls - kk ls al f1) (N / p2 (kk ls al f1))); assumption.
Qed.
Lemma time2_spec f2 x : In f2 psi2s -> List.length x = N -> time2 o psi1s N ls al f2 x = rows2 psi1s ls a f2 x.
Proof.
  intros H2 Hx. unfold time2, rows2, sel. apply map_ext_in. intros f1 H.
  apply filter_In in H as [H Hj]. apply Z.ltb_lt in Hj.
  destruct (kk_facts phi psi1s psi2s N ls al Ht f1 H) as (K0 & K1 & K2 & K3 & K4 & K5).
  destruct (jt_psi2 _ _ _ _ _ _ Ht f1 f2 H H2 Hj) as (J2 & J3). destruct (wave2_facts phi psi1s psi2s N ls al Ht f1 f2 H H2 Hj) as (W1 & W2 & W3 & _).
  destruct (U1_spec f1 x H Hx) as [E1 EL]. unfold wave2. rewrite E1. rewrite <- kk_rate1 in *.
  apply cfilt_spec; assumption.
Qed.
End Rows.

Section Freq.
Variables (psi : filter) (Nfr m c : nat) (lsf : Z) (alf : bool) (M : matrix C).
Hypotheses (HM : mat_ok m c M) (Hm : m <= Nfr) (HL : level_ok psi 0 Nfr) (Hd : Nat.divide (p2 (kf lsf alf psi)) Nfr).
Notation k := (kf lsf alf psi).
Lemma column_pad u : u < c -> pad_zero_row o (Nfr - m) (nth u (tr (RtoC 0) c M) []) = column Nfr M u.
Proof.
  intros Hu. destruct HM as [H1 H2]. rewrite nth_tr by exact Hu. unfold pad_zero_row, column.
  apply nth_ext with (d := RtoC 0) (d' := RtoC 0).
  - rewrite app_length, !map_length, repeat_length, seq_length. lia.
  - intros i Hi. rewrite app_length, map_length, repeat_length in Hi.
    change (nth i (map (fun n1 => at_ (nth n1 M []) u) (seq 0 Nfr)) (RtoC 0)) with (at_ (map (fun n1 => at_ (nth n1 M []) u) (seq 0 Nfr)) i).
    rewrite at_map_seq by lia. destruct (Nat.lt_ge_cases i m) as [A|A].
    + rewrite app_nth1 by (rewrite map_length; lia). rewrite (nth_map_in _ _ _ []) by lia. reflexivity.
    + rewrite app_nth2, map_length by (rewrite map_length; lia). cbn [o_zero complex_ops]. rewrite nth_repeat.
      rewrite (nth_overflow M) by lia. unfold at_. now destruct u.
Qed.
Lemma freq_ok : mat_ok (Nfr / p2 k) c (freq o Nfr lsf alf psi m c M).
Proof. unfold freq. apply tr_ok. eapply mat_ok_rows; [|apply tr_ok, HM]. intros x _. apply (cfilt_length o complex_ops_ok). Qed.
Lemma freq_spec r u : r < Nfr / p2 k -> u < c ->
  at_ (nth r (freq o Nfr lsf alf psi m c M) []) u = cconv (column Nfr M u) (idft (lev psi 0)) (Z.of_nat (p2 k * r)).
Proof.
  intros Hr Hu. unfold freq, at_. cbn [o_zero complex_ops].
  rewrite tr_nth by exact Hr.
  assert (EL : List.length (tr (RtoC 0) c M) = c) by (unfold tr; now rewrite map_length, seq_length).
  rewrite (nth_map_in _ _ _ []) by (rewrite EL; exact Hu). cbn [o_zero complex_ops]. rewrite column_pad by exact Hu.
  assert (EC : List.length (column Nfr M u) = Nfr) by (unfold column; now rewrite map_length, seq_length).
  rewrite cfilt_spec by assumption. change (nth r ?x (RtoC 0)) with (at_ x r). unfold sampled_conv. rewrite at_map_seq by now rewrite EC. reflexivity.
Qed.
Lemma freq_abs_row r : r < Nfr / p2 k ->
  nth r (map (map (o_abs o)) (freq o Nfr lsf alf psi m c M)) [] = map (fun u => joint_modulus Nfr M psi (2 ^ Z.to_nat k * r) u) (seq 0 c).
Proof.
  intros Hr. destruct freq_ok as [F1 F2]. rewrite (nth_map_in _ _ _ []) by (rewrite F1; exact Hr).
  assert (El : List.length (nth r (freq o Nfr lsf alf psi m c M) []) = c).
  { rewrite Forall_forall in F2. apply F2, nth_In. now rewrite F1. }
  apply list_ext; [now rewrite !map_length, seq_length|]. rewrite map_length, El. intros u Hu.
  rewrite at_map_C by (rewrite El; exact Hu). rewrite at_map_seq by exact Hu. rewrite freq_spec by assumption. reflexivity.
Qed.
End Freq.

Section Format.
Variables (phi : filter) (ls : Z) (a : avg) (phi_fr : filter) (lsf : Z) (a_fr : avg) (out format : string) (Nfr : nat).
Variables (psi : filter) (m c : nat) (M : matrix C) (q : jpath unit) (s : Z).
Notation k := (kf lsf (is_local_avg a_fr) psi).
Notation G := (freq o Nfr lsf (is_local_avg a_fr) psi m c M).
Hypotheses (HM : mat_ok m c M) (Hm : m <= Nfr) (HL : level_ok psi 0 Nfr) (Hd : Nat.divide (p2 k) Nfr).
Hypotheses (HF : fmt_ok phi ls a phi_fr lsf a_fr q s (Nfr / p2 k) c) (Hj : a_fr = Local -> q_spin q <> 0%Z -> kphi phi_fr q = k).
Definition j2_of : option Z := if second q then Some (jlast q) else None.

Lemma averaged_row_spec r : r < Nfr / p2 k ->
  nth r (map (tmap o phi ls a q c) (map (map (o_abs o)) G)) [] = averaged_row phi ls a Nfr j2_of M psi k c r.
Proof.
  intros Hr. destruct (freq_ok psi Nfr m c lsf (is_local_avg a_fr) M HM) as [F1 F2].
  rewrite (nth_map_in _ _ _ []) by (rewrite map_length, F1; exact Hr).
  rewrite freq_abs_row by assumption. unfold averaged_row, tmap, time_average, j2_of.
  set (row := map _ (seq 0 c)). assert (El : List.length row = c) by (unfold row; now rewrite map_length, seq_length).
  destruct a eqn:Ea.
  - destruct (second q) eqn:Es; [|reflexivity]. destruct (fo_time _ _ _ _ _ _ _ _ _ _ HF eq_refl Es) as (_ & T1 & T2 & T3).
    rewrite (r_low_spec phi (jlast q) (ls - jlast q) c row El T2 T3). reflexivity.
  - now rewrite osum_at.
  - reflexivity.
Qed.
Lemma tlen_averaged r : List.length (averaged_row phi ls a Nfr j2_of M psi k c r) = tlen ls a q c.
Proof.
  unfold averaged_row, time_average, tlen, j2_of. set (row := map _ (seq 0 c)). assert (El : List.length row = c) by (unfold row; now rewrite map_length, seq_length).
  destruct a; [|reflexivity|exact El]. destruct (second q); [rewrite sampled_lowpass_length, El; reflexivity|exact El].
Qed.

Theorem gmap_spec r v : r < ulen out format q s (flen phi_fr lsf a_fr q (Nfr / p2 k)) -> v < tlen ls a q c ->
  at_ (nth r (gmap o phi ls a phi_fr lsf a_fr out format q s (Nfr / p2 k) c G) []) v =
  joint_value phi ls a phi_fr Nfr lsf a_fr j2_of M psi (q_spin q) k c r v.
Proof.
  intros Hr Hv. destruct (freq_ok psi Nfr m c lsf (is_local_avg a_fr) M HM) as [F1 F2].
  set (A := map (tmap o phi ls a q c) (map (map (o_abs o)) G)).
  assert (HA : mat_ok (Nfr / p2 k) (tlen ls a q c) A).
  { eapply mat_ok_rows; [intros x E; apply (tmap_length o complex_ops_ok); exact E|]. eapply mat_ok_rows; [|split; [exact F1|exact F2]]. intros x E. now rewrite map_length. }
  assert (Eu : nth r (gmap o phi ls a phi_fr lsf a_fr out format q s (Nfr / p2 k) c G) [] = nth r (fmap o phi_fr lsf a_fr q (Nfr / p2 k) (tlen ls a q c) A) []).
  { unfold gmap, umap, ulen in *. destruct (joint_array out format); [reflexivity|]. apply rep_firstn. lia. }
  rewrite Eu. assert (Hrf : r < flen phi_fr lsf a_fr q (Nfr / p2 k)) by (unfold ulen in Hr; destruct (joint_array out format); lia).
  unfold fmap, joint_value, flen in *. destruct (Z.eqb_spec (q_spin q) 0) as [E0|E0]; [unfold A; now rewrite averaged_row_spec|].
  set (col := map (fun p => at_ (averaged_row phi ls a Nfr j2_of M psi k c p) v) (seq 0 (Nfr / 2 ^ Z.to_nat k))).
  assert (Ecol : nth v (tr (RtoC 0) (tlen ls a q c) A) [] = col).
  { rewrite nth_tr by exact Hv. apply list_ext; [unfold col; rewrite !map_length, seq_length; apply HA|].
    rewrite map_length. destruct HA as [A1 A2]. rewrite A1. intros p Hp. unfold at_ at 1. rewrite (nth_map_in _ _ _ []) by (rewrite A1; exact Hp).
    unfold col. rewrite at_map_seq by exact Hp. unfold A. rewrite averaged_row_spec by exact Hp. reflexivity. }
  assert (EL : List.length (tr (RtoC 0) (tlen ls a q c) A) = tlen ls a q c) by (unfold tr; now rewrite map_length, seq_length).
  assert (Elc : List.length col = Nfr / p2 k) by (unfold col; now rewrite map_length, seq_length).
  pose proof averaged_row_spec as AR. unfold freq_average. destruct a_fr eqn:Eaf; cbn [o_zero complex_ops].
  - unfold at_ at 1. rewrite tr_nth by exact Hrf. rewrite (nth_map_in _ _ _ []) by (rewrite EL; exact Hv). rewrite Ecol.
    destruct (fo_fr _ _ _ _ _ _ _ _ _ _ HF eq_refl E0) as (T1 & T3 & T4). specialize (Hj eq_refl E0).
    rewrite (r_low_spec phi_fr (kphi phi_fr q) (lsf - kphi phi_fr q) _ col Elc T3 T4). rewrite Hj. reflexivity.
  - unfold at_ at 1. rewrite tr_nth by exact Hrf. rewrite (nth_map_in _ _ _ []) by (rewrite EL; exact Hv). rewrite Ecol, osum_at. reflexivity.
  - change (at_ (nth r A []) v = at_ col r). unfold col. rewrite at_map_seq by exact Hrf. unfold A. now rewrite AR.
Qed.
End Format.
End Value.
