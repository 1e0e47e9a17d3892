(** Evaluation of joint time-frequency scattering with the NumPy backend: every coefficient is, for each
    element of the batch, a matrix computed from the corresponding row of the padded input. *)
From Coq Require Import String ZArith List Bool Arith Lia.
From Verif Require Import Base BaseProofs NdArray Backend Core1d Utils1d NdProofs Rows1d Mats Jtfs JtfsProofs.
Import ListNotations.
Local Open Scope nat_scope.

Lemma mapM_Ok {A B} (f : A -> res B) (g : A -> B) l : (forall a, In a l -> f a = Ok (g a)) -> mapM f l = Ok (map g l).
Proof.
  induction l as [|a l IH]; intros H; [reflexivity|]. cbn [mapM map]. rewrite (H a (or_introl eq_refl)). cbn [bind].
  rewrite IH by (intros; apply H; now right). reflexivity.
Qed.
Lemma mapM_map {A B C} (f : B -> res C) (g : A -> B) l : mapM f (map g l) = mapM (fun a => f (g a)) l.
Proof. induction l as [|a l IH]; [reflexivity|]. cbn [mapM map]. now rewrite IH. Qed.
Lemma mapM_ext {A B} (f g : A -> res B) l : (forall a, In a l -> f a = g a) -> mapM f l = mapM g l.
Proof.
  induction l as [|a l IH]; intros H; [reflexivity|]. cbn [mapM]. rewrite (H a (or_introl eq_refl)).
  rewrite IH by (intros; apply H; now right). reflexivity.
Qed.

Section Rows.
Context {K P : Type} (o : ops K) (Ho : ops_ok o) (sgn : P -> Z).
Notation filter := (filter (nd K) P).
Notation np := (numpy_backend o).
Notation z := (o_zero o).

(** One row of length [n] filtered by level [l] and subsampled by [2^k]. *)
Definition cfilt (f : filter) (l k : Z) (n : nat) (row : list K) : list K :=
  o_ifft o (r_sub o k n (mul_row o (lev f l) (o_fft o row))).
Lemma cfilt_length f l k n row : List.length (cfilt f l k n row) = n / p2 k.
Proof. unfold cfilt, r_sub. rewrite (proj2 Ho). apply periodize_row_length. Qed.

Lemma cfilt_rows {B} pre n rows f l k (cont : nd K -> res B) : rows_ok pre n rows -> 0 < n ->
  (0 <= l)%Z -> (0 <= k)%Z -> level_ok f l n -> Nat.divide (p2 k) n ->
  (l1 <- py_index (f_levels f) l ;;
   c <- np_cdgmm o (of_rows Complex pre n (map (o_fft o) rows)) l1 ;;
   h <- np_subsample o c (pow2 k) ;;
   y <- np_ifft o h ;; cont y)%res = cont (of_rows Complex pre (n / p2 k) (map (cfilt f l k n) rows)).
Proof.
  intros Hr Hn Hl Hk Hlev Hdiv. destruct (filtered_rows o Ho pre n rows Hr f l k Hl Hk Hlev Hdiv) as (w & E1 & E2 & E3 & E4).
  rewrite E1. cbn [bind]. rewrite E2. cbn [bind]. rewrite E3. cbn [bind].
  rewrite np_ifft_of by (try assumption; now apply div_p2_pos). cbn [bind]. now rewrite map_map.
Qed.

Section Core.
Variables (phi : filter) (psi1s psi2s : list filter) (N : nat) (ls : Z) (al : bool).
Variables (phi_fr : filter) (psis_fr : list filter) (Nfr : nat) (lsf : Z) (alf : bool).
Notation kk := (kk ls al).
Notation env1 := (env1 o N ls al).

(** Resolution of the frequency axis after one frequential filter. *)
Definition kf (psi : filter) : Z := if alf then Z.min (f_j psi) lsf else f_j psi.

(** Tabulated resolutions and divisibilities that the time stage relies on. *)
Record jadm_time : Prop := {
  jt_N : 0 < N;
  jt_ls : (0 <= ls)%Z;
  jt_div : Nat.divide (p2 ls) N;
  jt_phi : al = true -> level_ok phi 0 N;
  jt_ne : psi1s <> [];
  jt_psi1 : forall f1, In f1 psi1s -> (0 <= f_j f1)%Z /\ level_ok f1 0 N /\ (kk f1 <= ls)%Z /\ level_ok phi (kk f1) (N / p2 (kk f1));
  jt_psi2 : forall f1 f2, In f1 psi1s -> In f2 psi2s -> (f_j f1 < f_j f2)%Z ->
            level_ok f2 (kk f1) (N / p2 (kk f1)) /\ (f_j f2 <= ls)%Z
}.
(** The same for the frequency stage. *)
Record jadm_fr : Prop := {
  jf_N : f_N phi_fr = Z.of_nat Nfr;
  jf_room : List.length psi1s <= Nfr;
  jf_psi : forall psi, In psi psis_fr -> (0 <= f_j psi)%Z /\ level_ok psi 0 Nfr /\ Nat.divide (p2 (kf psi)) Nfr;
  jf_lsf : (0 <= lsf)%Z
}.
Hypotheses (Ht : jadm_time) (Hf : jadm_fr).

Lemma kf_nonneg psi : In psi psis_fr -> (0 <= kf psi)%Z.
Proof. intros H. destruct (jf_psi Hf psi H) as (H1 & _). pose proof (jf_lsf Hf). unfold kf. destruct alf; lia. Qed.

(** First-order time averages, and second-order time wavelet transforms, as rows over n1. *)
Definition low1 (f1 : filter) (row : list K) : list K := r_low o phi (kk f1) (ls - kk f1) (N / p2 (kk f1)) (env1 f1 row).
Definition time1 (row : list K) : matrix K := map (fun f1 => low1 f1 row) psi1s.
Definition sel (f2 : filter) : list filter := List.filter (fun f1 => f_j f1 <? f_j f2)%Z psi1s.
Definition wave2 (f2 f1 : filter) (row : list K) : list K := cfilt f2 (kk f1) (f_j f2 - kk f1) (N / p2 (kk f1)) (env1 f1 row).
Definition time2 (f2 : filter) (row : list K) : matrix K := map (fun f1 => wave2 f2 f1 row) (sel f2).
(** A frequential filter applied to a matrix with [m] rows and [n] columns, zero-padded to [Nfr] rows. *)
Definition freq (psi : filter) (m n : nat) (M : matrix K) : matrix K :=
  tr z (Nfr / p2 (kf psi)) (map (fun c => cfilt psi 0 (kf psi) Nfr (pad_zero_row o (Nfr - m) c)) (tr z n M)).

Lemma kk_facts f1 : In f1 psi1s -> (0 <= kk f1 <= ls)%Z /\ (kk f1 <= f_j f1)%Z /\ Nat.divide (p2 (kk f1)) N /\ 0 < N / p2 (kk f1) /\
  Nat.divide (p2 (ls - kk f1)) (N / p2 (kk f1)) /\ N / p2 (kk f1) / p2 (ls - kk f1) = N / p2 ls.
Proof.
  intros H. destruct (jt_psi1 Ht f1 H) as (H1 & _ & H2 & _). pose proof (jt_ls Ht).
  assert (G : (0 <= kk f1)%Z /\ (kk f1 <= f_j f1)%Z) by (unfold Rows1d.kk in *; destruct al; lia).
  destruct (p2_divide (kk f1) ls N ltac:(lia) (jt_div Ht)) as (D1 & D2 & D3).
  pose proof (div_p2_pos (kk f1) N (jt_N Ht) D1). repeat split; try assumption; try lia.
Qed.
Lemma low1_length f1 row : In f1 psi1s -> List.length (low1 f1 row) = N / p2 ls.
Proof. intros H. unfold low1. rewrite (r_low_length o Ho). apply (kk_facts f1 H). Qed.
Lemma wave2_facts f1 f2 : In f1 psi1s -> In f2 psi2s -> (f_j f1 < f_j f2)%Z ->
  (0 <= f_j f2 - kk f1)%Z /\ Nat.divide (p2 (f_j f2 - kk f1)) (N / p2 (kk f1)) /\ N / p2 (kk f1) / p2 (f_j f2 - kk f1) = N / p2 (f_j f2) /\
  Nat.divide (p2 (f_j f2)) N.
Proof.
  intros H1 H2 Hj. destruct (kk_facts f1 H1) as (F1 & F2 & _). destruct (jt_psi2 Ht f1 f2 H1 H2 Hj) as (_ & F3).
  destruct (p2_divide (f_j f2) ls N ltac:(lia) (jt_div Ht)) as (D & _).
  destruct (p2_divide (kk f1) (f_j f2) N ltac:(lia) D) as (_ & D2 & D3). repeat split; try assumption; lia.
Qed.
Lemma sel_In f1 f2 : In f1 (sel f2) <-> In f1 psi1s /\ (f_j f1 < f_j f2)%Z.
Proof. unfold sel. rewrite filter_In. now rewrite Z.ltb_lt. Qed.
Lemma wave2_length f1 f2 row : In f2 psi2s -> In f1 (sel f2) -> List.length (wave2 f2 f1 row) = N / p2 (f_j f2).
Proof.
  intros H2 H1. apply sel_In in H1 as [H1 Hj]. unfold wave2. rewrite cfilt_length. apply (wave2_facts f1 f2 H1 H2 Hj).
Qed.

Section Run.
Variables (B : nat) (rows : list (list K)).
Hypothesis (Hr : rows_ok [B; 1] N rows).
Lemma rows_B : List.length rows = B.
Proof. destruct Hr as [H _]. cbn in H. lia. Qed.
Lemma rows_map_ok n (g : list K -> list K) : (forall r, List.length r = N -> List.length (g r) = n) -> rows_ok [B; 1] n (map g rows).
Proof. intros H. eapply rows_ok_map; [exact H|exact Hr]. Qed.

Notation U0h := (of_rows Complex [B; 1] N (map (o_fft o) rows)).
Definition U1h (f1 : filter) : nd K := of_rows Complex [B; 1] (N / p2 (kk f1)) (map (o_fft o) (map (env1 f1) rows)).

Lemma width1_rows f1 : In f1 psi1s ->
  width1 np phi U0h ls al f1 = Ok (U1h f1, f_j f1, of_rows Real [B; 1] (N / p2 ls) (map (low1 f1) rows)).
Proof.
  intros H. destruct (jt_psi1 Ht f1 H) as (J0 & L0 & Lk & Lphi). destruct (kk_facts f1 H) as (F1 & F2 & F3 & F4 & F5 & F6).
  unfold width1. fold (kk f1). unfold order1_modulus. cbn [numpy_backend be_cdgmm be_subsample be_ifft be_modulus be_rfft be_irfft].
  destruct (env_rows o Ho [B; 1] N rows Hr (jt_N Ht) f1 0 (kk f1)) as [E1 R1]; try assumption; try lia.
  rewrite E1. cbn [bind]. change (r_env o f1 0 (kk f1) N) with (env1 f1) in *.
  rewrite np_rfft_of by assumption. cbn [bind].
  destruct (low_rows o Ho [B; 1] (N / p2 (kk f1)) _ R1 F4 phi (kk f1) (ls - kk f1)
    (fun S => Ok (of_rows Complex [B; 1] (N / p2 (kk f1)) (map (o_fft o) (map (env1 f1) rows)), f_j f1, S))) as [E2 R2]; try assumption; try lia.
  rewrite E2, F6. unfold U1h. rewrite (map_map (env1 f1) (r_low _ _ _ _ _)). reflexivity.
Qed.

Lemma width2_rows f1 f2 : In f1 psi1s -> In f2 psi2s ->
  width2 np f2 ls al (U1h f1, f_j f1) =
  Ok (if (f_j f1 <? f_j f2)%Z then [of_rows Complex [B; 1] (N / p2 (f_j f2)) (map (wave2 f2 f1) rows)] else []).
Proof.
  intros H1 H2. unfold width2. fold (kk f1). destruct (Z.ltb_spec (f_j f1) (f_j f2)) as [Hj|Hj]; [|reflexivity].
  destruct (kk_facts f1 H1) as (F1 & F2 & F3 & F4 & F5 & F6). destruct (jt_psi2 Ht f1 f2 H1 H2 Hj) as (L2 & L3).
  destruct (wave2_facts f1 f2 H1 H2 Hj) as (W1 & W2 & W3 & W4).
  replace (if al then Z.min (f_j f2 - kk f1) ls else f_j f2 - kk f1)%Z with (f_j f2 - kk f1)%Z by (destruct al; lia).
  cbn [numpy_backend be_cdgmm be_subsample be_ifft]. unfold U1h.
  rewrite (cfilt_rows [B; 1] (N / p2 (kk f1)) (map (env1 f1) rows) f2 (kk f1) (f_j f2 - kk f1) (fun y => Ok [y])); try assumption; try lia.
  - rewrite W3, map_map. reflexivity.
  - apply rows_map_ok. intros r _. apply (r_env_length o Ho).
Qed.

Lemma width2_all_rows n2 f2 : In f2 psi2s ->
  width2_all np (map (fun f1 => (U1h f1, f_j f1)) psi1s) ls al (n2, f2) =
  Ok (if Nat.ltb 0 (smaller psi1s (f_j f2))
      then [mk_wpath (of_mats Complex B (smaller psi1s (f_j f2)) (N / p2 (f_j f2)) (map (time2 f2) rows))
                     [-1; f_j f2]%Z [n2] (Z.of_nat (smaller psi1s (f_j f2)))]
      else []).
Proof.
  intros H2. unfold width2_all. rewrite mapM_map.
  rewrite (mapM_Ok _ (fun f1 => if (f_j f1 <? f_j f2)%Z then [of_rows Complex [B; 1] (N / p2 (f_j f2)) (map (wave2 f2 f1) rows)] else [])).
  2:{ intros f1 H1. now apply width2_rows. }
  cbn [bind].
  assert (E : concat (map (fun f1 => if (f_j f1 <? f_j f2)%Z then [of_rows Complex [B; 1] (N / p2 (f_j f2)) (map (wave2 f2 f1) rows)] else []) psi1s)
    = map (fun g => of_rows Complex [B; 1] (N / p2 (f_j f2)) (map g rows)) (map (wave2 f2) (sel f2))).
  { rewrite map_map. unfold sel. clear. induction psi1s as [|f l IH]; [reflexivity|]. cbn [map concat List.filter].
    rewrite IH. destruct (f_j f <? f_j f2)%Z; reflexivity. }
  rewrite E. clear E. rewrite !map_length. change (List.length (sel f2)) with (smaller psi1s (f_j f2)).
  destruct (Nat.ltb_spec 0 (smaller psi1s (f_j f2))) as [H|H]; [|reflexivity].
  cbn [numpy_backend be_stack]. rewrite np_stack_of.
  - cbn [bind]. rewrite map_length. change (List.length (sel f2)) with (smaller psi1s (f_j f2)). do 4 f_equal.
    unfold time2. apply map_ext. intros r. now rewrite map_map.
  - intros E. apply map_eq_nil in E. unfold smaller in H. fold (sel f2) in H. rewrite E in H. cbn in H. lia.
  - apply rows_B.
  - apply Forall_map, Forall_forall. intros f1 H1 r _. now apply wave2_length.
Qed.

Definition w1 : wpath (nd K) :=
  mk_wpath (of_mats Real B (List.length psi1s) (N / p2 ls) (map time1 rows)) [-1]%Z [] (Z.of_nat (List.length psi1s)).
Definition w2 (np2 : nat * filter) : list (wpath (nd K)) :=
  let (n2, f2) := np2 in
  if Nat.ltb 0 (smaller psi1s (f_j f2))
  then [mk_wpath (of_mats Complex B (smaller psi1s (f_j f2)) (N / p2 (f_j f2)) (map (time2 f2) rows))
                 [-1; f_j f2]%Z [n2] (Z.of_nat (smaller psi1s (f_j f2)))]
  else [].
Definition p0 : path (nd K) :=
  mk_path (of_rows Real [B; 1] (if al then N / p2 ls else N) (map (if al then r_low o phi 0 ls N else fun r => r) rows)) [] [].

Lemma widthfirst_rows : widthfirst np (of_rows Real [B; 1] N rows) phi psi1s psi2s ls al = Ok (p0, w1, concat (map w2 (enumerate psi2s))).
Proof.
  unfold widthfirst. cbn [numpy_backend be_rfft]. rewrite np_rfft_of by (try assumption; apply (jt_N Ht)). cbn [bind].
  assert (E0 : order0 np phi (of_rows Real [B; 1] N rows) U0h ls al = Ok p0).
  { unfold order0, p0. destruct al eqn:Eal.
    - pose proof (jt_phi Ht Eal) as L. cbn [numpy_backend be_cdgmm be_subsample be_irfft].
      destruct (low_rows o Ho [B; 1] N rows Hr (jt_N Ht) phi 0 ls (fun S => Ok (mk_path S [] []))) as [E _]; try assumption; try lia; try apply (jt_ls Ht); try apply (jt_div Ht).
    - rewrite map_id. reflexivity. }
  change (numpy_backend o) with np. rewrite E0. cbn [bind].
  rewrite (mapM_Ok _ (fun f1 => (U1h f1, f_j f1, of_rows Real [B; 1] (N / p2 ls) (map (low1 f1) rows)))) by (intros; now apply width1_rows).
  cbn [bind]. rewrite !map_map. cbn [fst snd numpy_backend be_stack].
  rewrite <- (map_map low1 (fun g => of_rows Real [B; 1] (N / p2 ls) (map g rows))). rewrite np_stack_of.
  - cbn [bind]. change (numpy_backend o) with np.
    rewrite (mapM_Ok _ w2).
    + cbn [bind]. rewrite !map_length. do 2 f_equal. f_equal. unfold w1. f_equal. f_equal. apply map_ext. intros r. unfold time1. now rewrite map_map.
    + intros [n2 f2] H2. apply width2_all_rows. apply In_enumerate in H2. eapply nth_error_In; exact H2.
  - intros E. apply map_eq_nil in E. now apply (jt_ne Ht).
  - apply rows_B.
  - apply Forall_map, Forall_forall. intros f1 H1 r _. now apply low1_length.
Qed.

(** ** Frequency scattering *)
Definition jcoef (wj : list Z) (wn : list nat) (m n : nat) (G : list K -> matrix K) (npsi : nat * filter) : jpath (nd K) :=
  set_coef (of_mats Complex B (Nfr / p2 (kf (snd npsi))) n (map (fun r => freq (snd npsi) m n (G r)) rows))
           (slot sgn wj wn (Z.of_nat m) npsi).

Lemma frequency_rows (spinned : bool) m n (G : list K -> matrix K) wj wn : 0 < Nfr -> m <= Nfr ->
  (forall r, In r rows -> mat_ok m n (G r)) ->
  frequency_scattering np sgn phi_fr psis_fr lsf alf spinned
    (mk_wpath (of_mats (if spinned then Complex else Real) B m n (map G rows)) wj wn (Z.of_nat m)) =
  Ok (map (jcoef wj wn m n G) (enumerate (if spinned then psis_fr else nonneg sgn psis_fr))).
Proof.
  intros HN Hm HG. unfold frequency_scattering. cbn [w_coef w_n1_max numpy_backend be_swap be_pad_frequency].
  assert (M0 : mats_ok B m n (map G rows)).
  { split; [rewrite map_length; apply rows_B|]. apply Forall_map, Forall_forall. exact HG. }
  rewrite np_swap_of by exact M0. cbn [bind].
  assert (M1 : mats_ok B n m (map (tr z n) (map G rows))) by (eapply mats_ok_map; [|exact M0]; intros M HM; now apply tr_ok).
  rewrite (jf_N Hf). replace (Z.of_nat Nfr - Z.of_nat m)%Z with (Z.of_nat (Nfr - m)) by lia.
  rewrite np_pad_frequency_of by exact M1. cbn [bind]. replace (m + (Nfr - m)) with Nfr by lia.
  set (pads := map (map (pad_zero_row o (Nfr - m))) (map (tr z n) (map G rows))).
  assert (M2 : mats_ok B n Nfr pads).
  { eapply mats_ok_map; [|exact M1]. intros M HM. eapply mat_ok_rows; [|exact HM]. intros r E. unfold pad_zero_row.
    rewrite app_length, repeat_length. lia. }
  pose proof (mats_rows _ _ _ _ M2) as R2.
  assert (E1 : (if spinned then be_cfft np (of_mats (if spinned then Complex else Real) B n Nfr pads)
     else be_rfft np (of_mats (if spinned then Complex else Real) B n Nfr pads)) =
     Ok (of_rows Complex [B; 1; n] Nfr (map (o_fft o) (concat pads)))).
  { unfold of_mats. destruct spinned; cbn [numpy_backend be_cfft be_rfft]; [now rewrite np_cfft_of|now rewrite np_rfft_of]. }
  rewrite E1. cbn [bind]. fold (nonneg sgn psis_fr).
  apply mapM_Ok. intros [n_fr psi] Hin. apply In_enumerate, nth_error_In in Hin.
  assert (Hpsi : In psi psis_fr).
  { destruct spinned; [exact Hin|]. unfold nonneg in Hin. now apply filter_In in Hin. }
  destruct (jf_psi Hf psi Hpsi) as (P1 & P2 & P3). pose proof (kf_nonneg psi Hpsi) as P4.
  unfold freq1. fold (kf psi). cbn [numpy_backend be_cdgmm be_subsample be_ifft be_swap].
  rewrite (cfilt_rows [B; 1; n] Nfr (concat pads) psi 0 (kf psi)); try assumption; try lia.
  rewrite map_concat_mats. fold (of_mats Complex B n (Nfr / p2 (kf psi)) (map (map (cfilt psi 0 (kf psi) Nfr)) pads)).
  rewrite np_swap_of.
  - cbn [bind]. unfold jcoef, slot, set_coef. cbn [fst snd q_j q_n q_n1_max q_n1_stride q_j_fr q_n_fr q_spin q_order w_j w_n w_n1_max].
    do 3 f_equal. unfold pads, freq. rewrite !map_map. apply map_ext. intros r. now rewrite map_map.
  - eapply mats_ok_map; [|exact M2]. intros M HM. eapply mat_ok_rows; [|exact HM]. intros r _. apply cfilt_length.
Qed.

Lemma time1_ok r : mat_ok (List.length psi1s) (N / p2 ls) (time1 r).
Proof. split; [unfold time1; apply map_length|]. apply Forall_map, Forall_forall. intros f1 H1. now apply low1_length. Qed.
Lemma time2_ok f2 r : In f2 psi2s -> mat_ok (smaller psi1s (f_j f2)) (N / p2 (f_j f2)) (time2 f2 r).
Proof. intros H2. split; [unfold time2; apply map_length|]. apply Forall_map, Forall_forall. intros f1 H1. now apply wave2_length. Qed.
Lemma smaller_le j2 : smaller psi1s j2 <= List.length psi1s.
Proof. unfold smaller. clear. induction psi1s as [|f l IH]; [cbn; lia|]. cbn [List.filter]. destruct (_ <? _)%Z; cbn [List.length]; lia. Qed.

Definition first_paths : list (jpath (nd K)) :=
  map (jcoef [-1]%Z [] (List.length psi1s) (N / p2 ls) time1) (enumerate (nonneg sgn psis_fr)).
Definition second_paths : list (jpath (nd K)) :=
  flat_map (fun np2 => if Nat.ltb 0 (smaller psi1s (f_j (snd np2)))
    then map (jcoef [-1; f_j (snd np2)]%Z [fst np2] (smaller psi1s (f_j (snd np2))) (N / p2 (f_j (snd np2))) (time2 (snd np2)))
             (enumerate psis_fr)
    else []) (enumerate psi2s).

Theorem joint_rows :
  joint_scattering np sgn (of_rows Real [B; 1] N rows) phi psi1s psi2s ls al phi_fr psis_fr lsf alf =
  Ok (p0, first_paths ++ second_paths).
Proof.
  unfold joint_scattering. rewrite widthfirst_rows. cbn [bind].
  assert (H0 : 0 < List.length psi1s) by (pose proof (jt_ne Ht); destruct psi1s; [congruence|cbn; lia]).
  pose proof (jf_room Hf) as Hroom.
  unfold w1. rewrite (frequency_rows false) by (try lia; intros; apply time1_ok). cbn [bind].
  assert (E : mapM (frequency_scattering np sgn phi_fr psis_fr lsf alf true) (concat (map w2 (enumerate psi2s))) =
    Ok (concat (map (fun np2 => if Nat.ltb 0 (smaller psi1s (f_j (snd np2)))
      then [map (jcoef [-1; f_j (snd np2)]%Z [fst np2] (smaller psi1s (f_j (snd np2))) (N / p2 (f_j (snd np2))) (time2 (snd np2)))
             (enumerate psis_fr)]
      else []) (enumerate psi2s)))).
  { assert (Hin : forall n f, In (n, f) (enumerate psi2s) -> In f psi2s) by (intros n f H; apply In_enumerate, nth_error_In in H; exact H).
    revert Hin. generalize (enumerate psi2s). intros l. induction l as [|[n2 f2] l IH]; intros Hin; [reflexivity|].
    cbn [map concat w2 fst snd]. specialize (IH (fun n f H => Hin n f (or_intror H))).
    destruct (Nat.ltb_spec 0 (smaller psi1s (f_j f2))) as [Hs|Hs]; cbn [app]; [|exact IH].
    cbn [mapM]. pose proof (smaller_le (f_j f2)).
    rewrite (frequency_rows true) by (try lia; intros; apply time2_ok; apply (Hin n2); now left). cbn [bind]. rewrite IH. reflexivity. }
  rewrite E. cbn [bind]. unfold first_paths, second_paths. do 3 f_equal.
  generalize (enumerate psi2s). intros l. induction l as [|np2 l IH]; [reflexivity|]. cbn [map concat flat_map].
  rewrite concat_app, IH. f_equal. destruct (Nat.ltb _ _); [cbn [concat]; now rewrite app_nil_r|reflexivity].
Qed.
End Run.
End Core.
End Rows.
