(** The coefficients returned by a successful TimeFrequencyScattering call. *)
From Coq Require Import String Reals ZArith QArith List Bool Arith Lia.
From Coquelicot Require Import Complex.
From Verif Require Import Base BaseProofs NdArray Backend Core1d Utils1d Utils1dProofs Frontend1d Frontend1dProofs NdProofs Rows1d FrontRows Mats
  Factory1d FactoryProofs ComplexOps FilterBank1d FilterBank1dProofs Construct1d Shape1d PropShapes1d Dft Conv1d Value1d PropNumerics1d
  Jtfs JtfsFront JtfsProofs JtfsKeys JtfsRows JtfsFmt JtfsFull JtfsConstruct JtfsMeta JtfsTotal PropJtfs JtfsReady JtfsRun SpecJtfsValue JtfsValue.
Import ListNotations.
Local Open Scope nat_scope.

(** Which filters a path of key [ns] (format 'joint') comes from: [psi] in frequency; the scale [j2] of the second
    time wavelet, if any; the rows (one for each first-order wavelet) that the frequential filter is applied to, and
    their length. *)
Inductive source (t : jtfs (nd C) R) (Np : nat) (ls : Z) (a : avg) :
  list nat -> Core1d.filter (nd C) R -> option Z -> (list C -> list (list C)) -> nat -> nat -> Prop :=
| src1 nf psi : nth_error (List.filter (fun f => (0 <=? sgnR (f_xi f))%Z) (t_psis_fr t)) nf = Some psi ->
    source t Np ls a [nf] psi None (rows1 (s_phi (t_base t)) (s_psi1 (t_base t)) ls a) (Np / 2 ^ Z.to_nat ls) (List.length (s_psi1 (t_base t)))
| src2 n2 nf f2 psi : nth_error (s_psi2 (t_base t)) n2 = Some f2 -> nth_error (t_psis_fr t) nf = Some psi ->
    source t Np ls a [n2; nf] psi (Some (f_j f2)) (rows2 (s_psi1 (t_base t)) ls a f2) (Np / 2 ^ Z.to_nat (f_j f2))
      (List.length (List.filter (fun f1 => (f_j f1 <? f_j f2)%Z) (s_psi1 (t_base t)))).

(** Rate (as a power of two) at which the frequency axis is sampled after the frequential filter. *)
Definition fr_rate (lsf : Z) (af : avg) (psi : Core1d.filter (nd C) R) : Z :=
  match af with Local => Z.min (f_j psi) lsf | _ => f_j psi end.
(** The stride between the labels n1 of a path. *)
Definition fr_stride (lsf : Z) (af : avg) (spin j_fr n1_max : Z) : Z :=
  if (spin =? 0)%Z then 2 ^ j_fr else match af with NoAvg => 2 ^ j_fr | Local => 2 ^ lsf | Global => n1_max end.

Lemma kf_rate lsf a_fr (psi : Core1d.filter (nd C) R) : kf lsf (is_local_avg a_fr) psi = fr_rate lsf a_fr psi.
Proof. unfold kf, fr_rate. now destruct a_fr. Qed.
Lemma estride_fr lsf a_fr q : estride lsf a_fr q = fr_stride lsf a_fr (q_spin q) (q_j_fr q) (q_n1_max q).
Proof. unfold estride, fr_stride. destruct a_fr; destruct (_ =? _)%Z; reflexivity. Qed.

Section Run.
Variables (t : jtfs (nd C) R) (n l r mx : nat) (ls : Z) (a : avg) (Nfr : nat) (lsf : Z) (a_fr : avg).
Hypothesis (Hr : jready sgnR t n l r mx ls a Nfr lsf a_fr).
Notation b := (t_base t).
Notation N := (l + n + r).

(** The matrix of an entry, and its values on any padded signal [y]. *)
Definition emat (e : entry) (y : list C) : matrix C :=
  gmap complex_ops (s_phi b) ls a (t_phi_fr t) lsf a_fr (s_out_type b) (t_format t) (e_q e) (estride lsf a_fr (e_q e)) (e_m e) (e_n e) (e_G e y).
Lemma entry_spec_padded e : In e (entries complex_ops sgnR t n l r ls a Nfr lsf a_fr) -> exists psi j2 rows c m,
  source t N ls a (q_n (e_q e)) psi j2 rows c m /\ (c = e_n e) /\ 0 < m /\
  In psi (t_psis_fr t) /\ q_spin (e_q e) = sgnR (f_xi psi) /\ q_j_fr (e_q e) = f_j psi /\ q_n1_max (e_q e) = Z.of_nat m /\
  j2 = j2_of (e_q e) /\ e_m e = Nfr / p2 (fr_rate lsf a_fr psi) /\ (0 <= fr_rate lsf a_fr psi)%Z /\ Nat.divide (p2 (fr_rate lsf a_fr psi)) Nfr /\ m <= Nfr /\
  (forall y i v, List.length y = N -> i < jrows t lsf a_fr e -> v < jcols ls a e ->
    at_ (nth i (emat e y) []) v =
    joint_value (s_phi b) ls a (t_phi_fr t) Nfr lsf a_fr j2 (rows y) psi (q_spin (e_q e)) (fr_rate lsf a_fr psi) c i v).
Proof.
  intros He. pose proof (jr_time _ _ _ _ _ _ _ _ _ _ _ Hr) as Ht. pose proof (jr_fr _ _ _ _ _ _ _ _ _ _ _ Hr) as Hf.
  pose proof (entries_fmt complex_ops complex_ops_ok sgnR t n l r mx ls a Nfr lsf a_fr Hr e He) as HF.
  assert (Hk : forall psi, In psi (t_psis_fr t) -> (0 <= fr_rate lsf a_fr psi)%Z /\ Nat.divide (p2 (fr_rate lsf a_fr psi)) Nfr /\ level_ok psi 0 Nfr).
  { intros psi Hpsi. destruct (jf_psi _ _ _ _ _ _ Hf psi Hpsi) as (P1 & P2 & P3). rewrite kf_rate in P3. split; [|auto].
    pose proof (jf_lsf _ _ _ _ _ _ Hf). unfold fr_rate. destruct a_fr; lia. }
  assert (Core : forall wj wn m c G nfr psi, e = entry_of complex_ops sgnR Nfr lsf a_fr wj wn m c G (nfr, psi) -> In psi (t_psis_fr t) -> m <= Nfr ->
    (forall x, mat_ok m c (G x)) -> forall y i v, List.length y = N -> i < jrows t lsf a_fr e -> v < jcols ls a e ->
    at_ (nth i (emat e y) []) v =
    joint_value (s_phi b) ls a (t_phi_fr t) Nfr lsf a_fr (j2_of (e_q e)) (G y) psi (q_spin (e_q e)) (fr_rate lsf a_fr psi) c i v).
  { intros wj wn m c G nfr psi -> Hpsi Hm HG y i v Hy Hi Hv. rewrite <- kf_rate.
    destruct (Hk psi Hpsi) as (K1 & K2 & K3). rewrite <- kf_rate in K2.
    apply (gmap_spec (s_phi b) ls a (t_phi_fr t) lsf a_fr (s_out_type b) (t_format t) Nfr psi m c); try assumption.
    - apply HG.
    - intros Ea Es. unfold kphi. cbn [entry_of e_q slot q_j_fr snd q_spin] in *. destruct (jr_aligned _ _ _ _ _ _ _ _ _ _ _ Hr Ea psi Hpsi Es) as (_ & A3 & _).
      unfold kf. rewrite Ea. exact A3. }
  pose proof (entries_ok complex_ops complex_ops_ok sgnR t n l r mx ls a Nfr lsf a_fr Hr e He) as He'.
  unfold entries in He. apply in_app_iff in He as [He|He].
  - apply in_map_iff in He as ([nf psi] & Ee & Hin). apply In_enumerate in Hin. pose proof (nth_error_In _ _ Hin) as Hpsi.
    apply filter_In in Hpsi as [Hpsi _]. destruct (Hk psi Hpsi) as (K1 & K2 & K3).
    assert (Hm : 0 < List.length (s_psi1 b)) by (pose proof (jt_ne _ _ _ _ _ _ Ht); destruct (s_psi1 b); [congruence|cbn; lia]).
    exists psi, None, (rows1 (s_phi b) (s_psi1 b) ls a), (N / 2 ^ Z.to_nat ls), (List.length (s_psi1 b)).
    assert (Ee' := Ee). rewrite <- Ee. cbn [entry_of e_q e_n e_m slot q_n q_spin q_j_fr q_n1_max fst snd app]. rewrite kf_rate.
    split; [now constructor|]. split; [reflexivity|]. split; [exact Hm|]. split; [exact Hpsi|]. repeat (split; [first [reflexivity|assumption]|]).
    split; [apply (jf_room _ _ _ _ _ _ Hf)|]. intros y i v Hy Hi Hv. rewrite Ee in *.
    rewrite (Core [-1]%Z [] (List.length (s_psi1 b)) (N / p2 ls) (time1 complex_ops (s_phi b) (s_psi1 b) N ls (is_local_avg a)) nf psi); try assumption.
    + rewrite <- Ee at 1 2. rewrite (time1_spec (s_phi b) (s_psi1 b) (s_psi2 b) N ls a Ht) by exact Hy. reflexivity.
    + now symmetry.
    + apply (jf_room _ _ _ _ _ _ Hf).
    + intros y'. now apply (time1_ok complex_ops complex_ops_ok) with (psi2s := s_psi2 b).
  - apply in_flat_map in He as ([n2 f2] & H2 & He). apply In_enumerate in H2. cbn [fst snd] in He.
    destruct (Nat.ltb_spec 0 (smaller (s_psi1 b) (f_j f2))) as [Hs|]; [|destruct He].
    apply in_map_iff in He as ([nf psi] & Ee & Hin). apply In_enumerate in Hin. pose proof (nth_error_In _ _ Hin) as Hpsi. destruct (Hk psi Hpsi) as (K1 & K2 & K3).
    pose proof (nth_error_In _ _ H2) as H2'.
    exists psi, (Some (f_j f2)), (rows2 (s_psi1 b) ls a f2), (N / 2 ^ Z.to_nat (f_j f2)), (smaller (s_psi1 b) (f_j f2)).
    rewrite <- Ee. cbn [entry_of e_q e_n e_m slot q_n q_spin q_j_fr q_n1_max fst snd app]. rewrite kf_rate.
    split; [now constructor|]. split; [reflexivity|]. split; [exact Hs|]. split; [exact Hpsi|]. repeat (split; [first [reflexivity|assumption]|]).
    assert (Hroom : smaller (s_psi1 b) (f_j f2) <= Nfr) by (pose proof (smaller_le (s_psi1 b) (f_j f2)); pose proof (jf_room _ _ _ _ _ _ Hf); lia).
    split; [exact Hroom|]. intros y i v Hy Hi Hv. rewrite Ee in *.
    rewrite (Core [-1; f_j f2]%Z [n2] (smaller (s_psi1 b) (f_j f2)) (N / p2 (f_j f2)) (time2 complex_ops (s_psi1 b) N ls (is_local_avg a) f2) nf psi); try assumption.
    + rewrite <- Ee at 1 2. rewrite (time2_spec (s_phi b) (s_psi1 b) (s_psi2 b) N ls a Ht) by assumption. reflexivity.
    + now symmetry.
    + intros y'. now apply (time2_ok complex_ops complex_ops_ok) with (phi := s_phi b) (psi2s := s_psi2 b).
Qed.
Lemma entry_spec e : In e (entries complex_ops sgnR t n l r ls a Nfr lsf a_fr) -> exists psi j2 rows c m,
  source t N ls a (q_n (e_q e)) psi j2 rows c m /\ (c = e_n e) /\ 0 < m /\
  In psi (t_psis_fr t) /\ q_spin (e_q e) = sgnR (f_xi psi) /\ q_j_fr (e_q e) = f_j psi /\ q_n1_max (e_q e) = Z.of_nat m /\
  j2 = j2_of (e_q e) /\ e_m e = Nfr / p2 (fr_rate lsf a_fr psi) /\ (0 <= fr_rate lsf a_fr psi)%Z /\ Nat.divide (p2 (fr_rate lsf a_fr psi)) Nfr /\ m <= Nfr /\
  (forall x i v, List.length x = n -> i < jrows t lsf a_fr e -> v < jcols ls a e ->
    at_ (nth i (jmat complex_ops t n l r ls a lsf a_fr e x) []) v =
    joint_value (s_phi b) ls a (t_phi_fr t) Nfr lsf a_fr j2 (rows (pad_reflect_row complex_ops l r n x)) psi (q_spin (e_q e)) (fr_rate lsf a_fr psi) c i v).
Proof.
  intros He. destruct (entry_spec_padded e He) as (psi & j2 & rows & c & m & H1 & H2 & H3 & H4 & H5 & H6 & H7 & H8 & H9 & H10 & H11 & H12 & H13).
  exists psi, j2, rows, c, m. repeat (split; [assumption|]). intros x i v Hx Hi Hv. apply H13; try assumption. apply pad_row_length.
Qed.
End Run.
