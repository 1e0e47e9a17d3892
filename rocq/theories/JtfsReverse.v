(** Joint time-frequency scattering of a signal read backwards: zeroth and first order. *)
From Coq Require Import String Reals ZArith QArith List Bool Arith Lia.
From Coquelicot Require Import Complex.
From Verif Require Import Base BaseProofs NdArray Backend Core1d Utils1d Utils1dProofs Frontend1d Frontend1dProofs NdProofs Rows1d FrontRows Mats
  Factory1d FactoryProofs ComplexOps FilterBank1d FilterBank1dProofs Construct1d Shape1d PropShapes1d Dft Conv1d Value1d Tabulated1d PropNumerics1d Stability1d
  Jtfs JtfsFront JtfsProofs JtfsKeys JtfsRows JtfsFmt JtfsFull JtfsConstruct JtfsMeta JtfsTotal PropJtfs JtfsReady JtfsRun SpecJtfsValue JtfsValue JtfsCoef JtfsShift.
Import ListNotations.
Local Open Scope nat_scope.

Lemma csum_reversed x : 0 < List.length x -> csum (List.length (reversed x)) (at_ (reversed x)) = csum (List.length x) (at_ x).
Proof.
  intros Hx. rewrite reversed_length. set (n := List.length x) in *.
  rewrite (csum_ext n (at_ (reversed x)) (fun m => at_ x (Z.to_nat ((- Z.of_nat m) mod Z.of_nat n)))) by (intros m Hm; now rewrite at_reversed).
  exact (csum_reflect_mod n x 0 Hx).
Qed.

Section Rows.
Context {P : Type}.
Notation filter := (Core1d.filter (nd C) P).
Variables (phi : filter) (psi1s psi2s : list filter) (N : nat) (ls : Z) (a : avg).
Notation al := (is_local_avg a).
Hypothesis (Ht : jadm_time phi psi1s psi2s N ls al).
Hypothesis (HF : forall (f : filter) k n, (f = phi \/ In f psi1s \/ In f psi2s) -> level_ok f k n -> all_real (lev f k)).

Lemma rows1_reversed x : List.length x = N -> all_real x ->
  rows1 phi psi1s ls a (reversed x) = map reversed (rows1 phi psi1s ls a x).
Proof.
  intros Hx Rx. unfold rows1. rewrite map_map. apply map_ext_in. intros f1 H.
  destruct (kk_facts phi psi1s psi2s N ls al Ht f1 H) as (K0 & K1 & K2 & K3 & K4 & K5).
  destruct (jt_psi1 _ _ _ _ _ _ Ht f1 H) as (_ & L0 & _ & L1).
  destruct (U1_spec phi psi1s psi2s N ls a Ht f1 x H Hx) as [_ EL]. rewrite (kk_rate ls a f1) in *.
  pose proof (jt_N _ _ _ _ _ _ Ht) as HN.
  assert (EU : U1 ls a f1 (reversed x) = reversed (U1 ls a f1 x)).
  { unfold U1. apply reversed_envelope; rewrite ?Hx; try assumption; [apply p2_pos|apply (level_length _ _ _ L0)|].
    eapply HF; [right; left; exact H|exact L0]. }
  rewrite EU. apply reversed_lowpass; rewrite ?EL; try assumption; [apply p2_pos|apply (level_length _ _ _ L1)|apply envelope_real|].
  eapply HF; [left; reflexivity|exact L1].
Qed.
End Rows.

Section Joint.
Context {P : Type}.
Notation filter := (Core1d.filter (nd C) P).
Variables (phi : filter) (ls : Z) (a : avg) (phi_fr : filter) (Nfr : nat) (lsf : Z) (af : avg).
Variables (psi : filter) (c : nat) (M : list (list C)).
Hypotheses (Hc : 0 < c) (HM : forall row, In row M -> List.length row = c).

Lemma column_reversed u : u < c -> column Nfr (map reversed M) u = column Nfr M (Z.to_nat ((- Z.of_nat u) mod Z.of_nat c)).
Proof.
  intros Hu. unfold column. apply map_ext. intros n1. destruct (Nat.lt_ge_cases n1 (List.length M)) as [Hn|Hn].
  - rewrite (nth_map_in _ _ _ []) by exact Hn. assert (El : List.length (nth n1 M []) = c) by (apply HM, nth_In; exact Hn).
    rewrite at_reversed by (rewrite El; exact Hu). now rewrite El.
  - rewrite !nth_overflow by (rewrite ?map_length; exact Hn). now rewrite !at_nil.
Qed.
Lemma modulus_reversed p :
  map (fun u => joint_modulus Nfr (map reversed M) psi p u) (seq 0 c) = reversed (map (fun u => joint_modulus Nfr M psi p u) (seq 0 c)).
Proof.
  apply list_ext; [now rewrite reversed_length, !map_length|]. rewrite map_length, seq_length. intros u Hu.
  rewrite at_reversed by (rewrite map_length, seq_length; exact Hu). rewrite map_length, seq_length.
  pose proof (Z.mod_pos_bound (- Z.of_nat u) (Z.of_nat c) ltac:(lia)) as B.
  rewrite !at_map_seq by lia. unfold joint_modulus. now rewrite column_reversed.
Qed.
(** First-order rows are averaged in time already: they are summed, or left as they are. *)
Lemma averaged_reversed kf r :
  averaged_row phi ls a Nfr None (map reversed M) psi kf c r = reversed (averaged_row phi ls a Nfr None M psi kf c r).
Proof.
  unfold averaged_row. rewrite modulus_reversed. set (row := map _ (seq 0 c)).
  assert (El : List.length row = c) by (unfold row; now rewrite map_length, seq_length).
  unfold time_average. destruct a; try reflexivity.
  rewrite csum_reversed by (rewrite El; exact Hc). unfold reversed. cbn [List.length seq map]. now rewrite Z.mod_1_r.
Qed.
Lemma value_reversed1 spin kf r v L : (forall p, List.length (averaged_row phi ls a Nfr None M psi kf c p) = L) -> v < L ->
  joint_value phi ls a phi_fr Nfr lsf af None (map reversed M) psi spin kf c r v =
  joint_value phi ls a phi_fr Nfr lsf af None M psi spin kf c r (Z.to_nat ((- Z.of_nat v) mod Z.of_nat L)).
Proof.
  intros HL Hv. unfold joint_value. rewrite averaged_reversed. destruct (spin =? 0)%Z.
  - rewrite at_reversed by (rewrite HL; exact Hv). now rewrite HL.
  - f_equal. f_equal. apply map_ext. intros p. rewrite averaged_reversed, at_reversed by (rewrite HL; exact Hv). now rewrite HL.
Qed.
End Joint.

Section Run.
Variables (t : jtfs (nd C) R) (n l r mx : nat) (ls : Z) (a : avg) (Nfr : nat) (lsf : Z) (af : avg).
Hypothesis (Hr : jready sgnR t n l r mx ls a Nfr lsf af).
Notation b := (t_base t).
Notation N := (l + n + r).
Notation es := (entries complex_ops sgnR t n l r ls a Nfr lsf af).
Notation emat := (emat t ls a lsf af).
Hypothesis (HF : forall (f : Core1d.filter (nd C) R) k m, stored b f -> level_ok f k m -> all_real (lev f k)).

(** An entry with a single time scale comes from the first order. *)
Lemma emat_reversed e y : In e es -> List.length (q_j (e_q e)) = 1 -> List.length y = N -> all_real y ->
  (forall i, i < jrows t lsf af e -> nth i (emat e (reversed y)) [] = reversed (nth i (emat e y) [])) /\
  jcols ls a e = match a with Global => 1 | _ => N / p2 ls end.
Proof.
  intros He H1 Hy Ry.
  pose proof (jr_time _ _ _ _ _ _ _ _ _ _ _ Hr) as Ht.
  destruct (entries_ok complex_ops complex_ops_ok sgnR t n l r mx ls a Nfr lsf af Hr e He) as (wj & wn & m' & c' & G & nfr & psi' & Ee & _ & _ & Hc' & _ & Hcase).
  destruct (entry_spec_padded t n l r mx ls a Nfr lsf af Hr e He) as (psi & j2 & rows & c & m & Hsrc & Hcn & Hm0 & Hpsi & Hsp & Hjf & Hn1 & Hj2 & Hem & _ & _ & _ & Hval).
  assert (Hy' : List.length (reversed y) = N) by now rewrite reversed_length.
  destruct (emat_ok t n l r mx ls a Nfr lsf af Hr e y He) as [O1 O2]. destruct (emat_ok t n l r mx ls a Nfr lsf af Hr e (reversed y) He) as [O1' O2'].
  rewrite Forall_forall in O2, O2'.
  assert (Facts : j2 = None /\ rows (reversed y) = map reversed (rows y) /\ (forall row, In row (rows y) -> List.length row = c) /\ 0 < c /\
    jcols ls a e = match a with Global => 1 | _ => N / p2 ls end /\ second (e_q e) = false).
  { rewrite Ee in H1, Hcn, Hsrc. unfold jcols, tlen, second, jlast. rewrite Ee. clear Hval Hem Hjf Hsp Hj2 Ee He.
    cbn [entry_of e_q e_n slot q_j q_n fst snd] in *.
    destruct Hcase as [(-> & -> & ->)|(n2 & f2 & H2 & Hs & -> & -> & -> & Hj)].
    - cbn [app] in Hsrc. inversion Hsrc; subst. cbn [List.length app Nat.ltb Nat.leb].
      split; [reflexivity|]. split; [apply rows1_reversed with (psi2s := s_psi2 b) (N := N); assumption|].
      split; [intros row; apply rows1_length with (psi2s := s_psi2 b); assumption|].
      split; [exact Hc'|]. split; [destruct a; reflexivity|reflexivity].
    - cbn [app List.length] in H1. lia. }
  destruct Facts as (-> & F1 & F2 & F3 & F4 & F5). split; [|exact F4]. intros i Hi.
  assert (L1 : List.length (nth i (emat e y) []) = jcols ls a e) by (apply O2, nth_In; rewrite O1; exact Hi).
  assert (L2 : List.length (nth i (emat e (reversed y)) []) = jcols ls a e) by (apply O2', nth_In; rewrite O1'; exact Hi).
  apply list_ext; [rewrite reversed_length; congruence|]. rewrite L2. intros v Hv.
  rewrite at_reversed by (rewrite L1; exact Hv). rewrite L1.
  pose proof (Z.mod_pos_bound (- Z.of_nat v) (Z.of_nat (jcols ls a e)) ltac:(lia)) as B.
  rewrite !Hval by (try assumption; lia). rewrite F1.
  apply value_reversed1 with (L := jcols ls a e); try assumption.
  intros p. subst c. unfold averaged_row, time_average, jcols, tlen. rewrite F5. set (row := map _ (seq 0 (e_n e))).
  assert (El : List.length row = e_n e) by (unfold row; now rewrite map_length, seq_length).
  clear - El. destruct a; [exact El|reflexivity|exact El].
Qed.
End Run.
