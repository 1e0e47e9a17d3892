(** Evaluation of the 1-D transform run with the NumPy backend, row by row: every coefficient is a
    function of the corresponding row of the padded input.  Also gives totality. *)
From Coq Require Import ZArith List Bool Arith Lia.
From Verif Require Import Base BaseProofs NdArray Backend Core1d NdProofs.
Import ListNotations.
Local Open Scope nat_scope.

Definition p2 (k : Z) : nat := 2 ^ Z.to_nat k.
Lemma p2_pos k : 0 < p2 k.
Proof. unfold p2. pose proof (Nat.pow_nonzero 2 (Z.to_nat k)). lia. Qed.
Lemma p2_0 : p2 0 = 1.
Proof. reflexivity. Qed.
Lemma p2_add a b : (0 <= a)%Z -> (0 <= b)%Z -> p2 (a + b) = p2 a * p2 b.
Proof. intros Ha Hb. unfold p2. rewrite Z2Nat.inj_add by assumption. apply Nat.pow_add_r. Qed.
Lemma pow2_p2 k : (0 <= k)%Z -> pow2 k = PInt (Z.of_nat (p2 k)).
Proof.
  intros Hk. unfold pow2. destruct (Z.ltb_spec k 0); [lia|]. f_equal. unfold p2.
  rewrite Nat2Z.inj_pow, Z2Nat.id by assumption. reflexivity.
Qed.
Lemma p2_divide a b n : (0 <= a <= b)%Z -> Nat.divide (p2 b) n ->
  Nat.divide (p2 a) n /\ Nat.divide (p2 (b - a)) (n / p2 a) /\ n / p2 a / p2 (b - a) = n / p2 b.
Proof.
  intros Hab [m Hm]. pose proof (p2_pos a). pose proof (p2_pos b). pose proof (p2_pos (b - a)).
  assert (E : p2 b = p2 a * p2 (b - a)) by (rewrite <- p2_add by lia; f_equal; lia).
  assert (E1 : n / p2 a = m * p2 (b - a)) by (subst n; rewrite E; replace (m * (p2 a * p2 (b-a))) with (m * p2 (b - a) * p2 a) by lia; apply Nat.div_mul; lia).
  split; [exists (m * p2 (b - a)); rewrite Hm, E; lia|]. split; [exists m; exact E1|].
  rewrite E1, Nat.div_mul by lia. subst n. now rewrite Nat.div_mul by lia.
Qed.
Lemma div_p2_pos a n : 0 < n -> Nat.divide (p2 a) n -> 0 < n / p2 a.
Proof. intros Hn [m Hm]. pose proof (p2_pos a). subst n. rewrite Nat.div_mul by lia. destruct m; lia. Qed.

Section RowEval.
Context {K P : Type} (o : ops K) (Ho : ops_ok o).
Notation filter := (filter (nd K) P).
Notation np := (numpy_backend o).

Definition lev (f : filter) (k : Z) : list K :=
  match nth_error (f_levels f) (Z.to_nat k) with Some w => nd_data w | None => [] end.
Definition level_ok (f : filter) (k : Z) (n : nat) : Prop :=
  exists w, nth_error (f_levels f) (Z.to_nat k) = Some w /\ nd_shape w = [n] /\
            nd_dtype w <> OtherT /\ List.length (nd_data w) = n.

Definition r_sub (k : Z) (n : nat) (row : list K) : list K := periodize_row o (p2 k) (n / p2 k) row.
(** Filtering one row of length [n] by level [l], subsampling by [2^k], then modulus / real part. *)
Definition r_env (f : filter) (l k : Z) (n : nat) (row : list K) : list K :=
  map (o_abs o) (o_ifft o (r_sub k n (mul_row o (lev f l) (o_fft o row)))).
Definition r_low (f : filter) (l k : Z) (n : nat) (row : list K) : list K :=
  map (o_re o) (o_ifft o (r_sub k n (mul_row o (lev f l) (o_fft o row)))).

Lemma r_env_length f l k n row : List.length (r_env f l k n row) = n / p2 k.
Proof. unfold r_env, r_sub. rewrite map_length, (proj2 Ho). apply periodize_row_length. Qed.
Lemma r_low_length f l k n row : List.length (r_low f l k n row) = n / p2 k.
Proof. unfold r_low, r_sub. rewrite map_length, (proj2 Ho). apply periodize_row_length. Qed.

Section Steps.
Variables (pre : list nat) (n : nat) (rows : list (list K)).
Hypotheses (Hr : rows_ok pre n rows) (Hn : 0 < n).

Lemma filtered_rows f l k : (0 <= l)%Z -> (0 <= k)%Z -> level_ok f l n -> Nat.divide (p2 k) n ->
  exists w, py_index (f_levels f) l = Ok w /\
    np_cdgmm o (of_rows Complex pre n (map (o_fft o) rows)) w =
      Ok (of_rows Complex pre n (map (fun r => mul_row o (lev f l) (o_fft o r)) rows)) /\
    np_subsample o (of_rows Complex pre n (map (fun r => mul_row o (lev f l) (o_fft o r)) rows)) (pow2 k) =
      Ok (of_rows Complex pre (n / p2 k) (map (fun r => r_sub k n (mul_row o (lev f l) (o_fft o r))) rows)) /\
    rows_ok pre (n / p2 k) (map (fun r => r_sub k n (mul_row o (lev f l) (o_fft o r))) rows).
Proof.
  intros Hl Hk (w & Hw & Hs & Hd & Hlen) Hdiv. exists w.
  assert (Ef : rows_ok pre n (map (o_fft o) rows)).
  { eapply rows_ok_map; [|exact Hr]. intros r E. now rewrite (proj1 Ho). }
  assert (El : lev f l = nd_data w) by (unfold lev; now rewrite Hw).
  split; [apply py_index_nonneg; assumption|]. split; [|split].
  - rewrite np_cdgmm_of by assumption || reflexivity. rewrite map_map, El. reflexivity.
  - rewrite pow2_p2 by assumption. rewrite np_subsample_of; [|..|assumption]; [|clear Ef|apply p2_pos].
    + rewrite map_map. reflexivity.
    + eapply rows_ok_map; [|exact Hr]. intros r E. rewrite El, mul_row_length; rewrite (proj1 Ho); congruence.
  - eapply rows_ok_map; [|exact Hr]. intros r E. apply periodize_row_length.
Qed.

Lemma env_rows f l k : (0 <= l)%Z -> (0 <= k)%Z -> level_ok f l n -> Nat.divide (p2 k) n ->
  (l1 <- py_index (f_levels f) l ;;
   U_c <- np_cdgmm o (of_rows Complex pre n (map (o_fft o) rows)) l1 ;;
   U_h <- np_subsample o U_c (pow2 k) ;;
   U_c <- np_ifft o U_h ;;
   np_modulus o U_c)%res = Ok (of_rows Real pre (n / p2 k) (map (r_env f l k n) rows)) /\
  rows_ok pre (n / p2 k) (map (r_env f l k n) rows).
Proof.
  intros Hl Hk Hlev Hdiv. destruct (filtered_rows f l k Hl Hk Hlev Hdiv) as (w & E1 & E2 & E3 & E4).
  split.
  - rewrite E1. cbn [bind]. rewrite E2. cbn [bind]. rewrite E3. cbn [bind].
    rewrite np_ifft_of by (try assumption; now apply div_p2_pos). cbn [bind].
    rewrite np_modulus_of by discriminate. rewrite !map_map. reflexivity.
  - eapply rows_ok_map; [|exact Hr]. intros r _. apply r_env_length.
Qed.

Lemma low_rows {B} f l k (cont : nd K -> res B) : (0 <= l)%Z -> (0 <= k)%Z -> level_ok f l n -> Nat.divide (p2 k) n ->
  (l1 <- py_index (f_levels f) l ;;
   S_c <- np_cdgmm o (of_rows Complex pre n (map (o_fft o) rows)) l1 ;;
   S_h <- np_subsample o S_c (pow2 k) ;;
   S_r <- np_irfft o S_h ;;
   cont S_r)%res = cont (of_rows Real pre (n / p2 k) (map (r_low f l k n) rows)) /\
  rows_ok pre (n / p2 k) (map (r_low f l k n) rows).
Proof.
  intros Hl Hk Hlev Hdiv. destruct (filtered_rows f l k Hl Hk Hlev Hdiv) as (w & E1 & E2 & E3 & E4).
  split.
  - rewrite E1. cbn [bind]. rewrite E2. cbn [bind]. rewrite E3. cbn [bind].
    rewrite np_irfft_of by (try assumption; now apply div_p2_pos). cbn [bind].
    rewrite !map_map. reflexivity.
  - eapply rows_ok_map; [|exact Hr]. intros r _. apply r_low_length.
Qed.
End Steps.

(** ** The whole transform *)
Section Whole.
Variables (phi : filter) (psi1s psi2s : list filter) (two : bool) (N : nat) (ls : Z) (al : bool).

Definition kk (f : filter) : Z := if al then Z.min (f_j f) ls else f_j f.
Definition env1 (psi1 : filter) (row : list K) : list K := r_env psi1 0 (kk psi1) N row.
Definition env2 (psi1 psi2 : filter) (row : list K) : list K :=
  r_env psi2 (kk psi1) (kk psi2 - kk psi1) (N / p2 (kk psi1)) (env1 psi1 row).
Definition out0 (row : list K) : list K := if al then r_low phi 0 ls N row else row.
Definition out1 (psi1 : filter) (row : list K) : list K :=
  if al then r_low phi (kk psi1) (ls - kk psi1) (N / p2 (kk psi1)) (env1 psi1 row) else env1 psi1 row.
Definition out2 (psi1 psi2 : filter) (row : list K) : list K :=
  if al then r_low phi (kk psi2) (ls - kk psi2) (N / p2 (kk psi2)) (env2 psi1 psi2 row) else env2 psi1 psi2 row.

(** The coefficient of a path as a function of one row of the padded input, and its resolution. *)
Definition value (key : list nat) : list K -> list K :=
  match key with
  | [n1] => match nth_error psi1s n1 with Some f1 => out1 f1 | None => fun r => r end
  | [n1; n2] => match nth_error psi1s n1, nth_error psi2s n2 with
                | Some f1, Some f2 => out2 f1 f2 | _, _ => fun r => r end
  | _ => out0
  end.
Definition resolution (key : list nat) : Z :=
  if al then ls else
  match key with
  | [n1] => match nth_error psi1s n1 with Some f1 => f_j f1 | None => 0 end
  | [n1; n2] => match nth_error psi2s n2 with Some f2 => f_j f2 | None => 0 end
  | _ => 0
  end.

(** Tabulated resolutions and divisibilities that the transform relies on. *)
Record adm : Prop := {
  adm_N : 0 < N;
  adm_ls : (0 <= ls)%Z;
  adm_phi : al = true -> Nat.divide (p2 ls) N /\ level_ok phi 0 N;
  adm_psi1 : forall f1, In f1 psi1s -> (0 <= f_j f1)%Z /\ level_ok f1 0 N /\
            (al = false -> Nat.divide (p2 (f_j f1)) N) /\
            (al = true -> level_ok phi (kk f1) (N / p2 (kk f1)));
  adm_psi2 : two = true -> forall f1 f2, In f1 psi1s -> In f2 psi2s -> (f_j f1 < f_j f2)%Z ->
            level_ok f2 (kk f1) (N / p2 (kk f1)) /\ (al = false -> Nat.divide (p2 (f_j f2)) N) /\
            (al = true -> level_ok phi (kk f2) (N / p2 (kk f2)))
}.

Section Run.
Variables (pre : list nat) (rows : list (list K)).
Hypotheses (Hr : rows_ok pre N rows) (Ha : adm).

Definition good (p : path (nd K)) : Prop :=
  p_coef p = of_rows Real pre (N / p2 (resolution (p_n p))) (map (value (p_n p)) rows) /\
  rows_ok pre (N / p2 (resolution (p_n p))) (map (value (p_n p)) rows).

Lemma kk_ok f : (0 <= f_j f)%Z -> (al = false -> Nat.divide (p2 (f_j f)) N) ->
  (0 <= kk f)%Z /\ Nat.divide (p2 (kk f)) N /\ (al = true -> (kk f <= ls)%Z) /\ 0 < N / p2 (kk f).
Proof.
  intros Hj Hd. pose proof (adm_ls Ha). assert (G : (0 <= kk f)%Z /\ Nat.divide (p2 (kk f)) N /\ (al = true -> (kk f <= ls)%Z)).
  { unfold kk. destruct al eqn:E.
    - destruct (adm_phi Ha E) as [Hdiv _]. repeat split; try lia.
      refine (proj1 (p2_divide (Z.min (f_j f) ls) ls N _ Hdiv)). lia.
    - split; [exact Hj|]. split; [apply Hd; reflexivity|discriminate]. }
  destruct G as (G1 & G2 & G3). repeat split; try assumption. apply div_p2_pos; [apply (adm_N Ha)|assumption].
Qed.

Lemma order0_rows : exists p0,
  order0 np phi (of_rows Real pre N rows) (of_rows Complex pre N (map (o_fft o) rows)) ls al = Ok p0 /\
  good p0 /\ p_n p0 = [] /\ p_j p0 = [].
Proof.
  pose proof (adm_N Ha) as HN. pose proof (adm_ls Ha) as Hls. unfold order0, good. destruct al eqn:E.
  - destruct (adm_phi Ha E) as [Hdiv Hphi].
    destruct (low_rows pre N rows Hr HN phi 0 ls (fun S_r => Ok (mk_path S_r [] []))) as [E1 E2];
      [lia|lia| |exact Hdiv|].
    + exact Hphi.
    + cbn [numpy_backend be_cdgmm be_subsample be_irfft]. rewrite E1. eexists. split; [reflexivity|].
      cbn [p_coef p_n p_j]. unfold resolution, value, out0. rewrite E. auto.
  - eexists. split; [reflexivity|]. cbn [p_coef p_n p_j]. unfold resolution, value, out0. rewrite E.
    rewrite p2_0, Nat.div_1_r, map_id. auto.
Qed.

Lemma order2_rows n1 f1 n2 f2 : nth_error psi1s n1 = Some f1 -> nth_error psi2s n2 = Some f2 -> two = true ->
  exists l, order2 np phi (of_rows Complex pre (N / p2 (kk f1)) (map (o_fft o) (map (env1 f1) rows)))
              n1 (f_j f1) (kk f1) ls al (n2, f2) = Ok l /\ Forall good l.
Proof.
  intros E1 E2 Htwo. pose proof (adm_N Ha) as HN. pose proof (adm_ls Ha) as Hls. unfold order2.
  destruct (Z.ltb_spec (f_j f1) (f_j f2)) as [Hj|Hj]; [|eexists; split; [reflexivity|constructor]].
  destruct (adm_psi1 Ha f1 (nth_error_In _ _ E1)) as (Hj1 & _ & Hd1 & _).
  destruct (adm_psi2 Ha Htwo f1 f2 (nth_error_In _ _ E1) (nth_error_In _ _ E2) Hj) as (Hlev & Hd2 & Hphi).
  destruct (kk_ok f1 Hj1 Hd1) as (Hk1 & Hdiv1 & Hle1 & Hpos1).
  destruct (kk_ok f2) as (Hk2 & Hdiv2 & Hle2 & Hpos2); [lia|exact Hd2|].
  change (if al then Z.min (f_j f2) ls else f_j f2) with (kk f2).
  assert (Hmono : (kk f1 <= kk f2)%Z) by (unfold kk; destruct al; lia).
  rewrite (Z.max_l (kk f2 - kk f1) 0) by lia.
  destruct (p2_divide (kk f1) (kk f2) N) as (_ & Hdiv12 & Hquot); [lia|exact Hdiv2|].
  assert (Hr1 : rows_ok pre (N / p2 (kk f1)) (map (env1 f1) rows)).
  { eapply rows_ok_map; [|exact Hr]. intros r _. apply r_env_length. }
  destruct (env_rows pre _ _ Hr1 Hpos1 f2 (kk f1) (kk f2 - kk f1)) as [Ee Re]; [lia|lia|exact Hlev|exact Hdiv12|].
  rewrite map_map in Re.
  cbn [numpy_backend be_cdgmm be_subsample be_ifft be_modulus be_rfft be_irfft].
  (* the common prefix of both branches *)
  assert (EE : forall (B : Type) (cont : nd K -> res B),
    (l2 <- py_index (f_levels f2) (kk f1) ;;
     U_2_c <- np_cdgmm o (of_rows Complex pre (N / p2 (kk f1)) (map (o_fft o) (map (env1 f1) rows))) l2 ;;
     U_2_hat <- np_subsample o U_2_c (pow2 (kk f2 - kk f1)) ;;
     U_2_c <- np_ifft o U_2_hat ;;
     U_2_m <- np_modulus o U_2_c ;; cont U_2_m)%res =
    cont (of_rows Real pre (N / p2 (kk f2)) (map (env2 f1 f2) rows))).
  { intros B cont. rewrite Hquot in Ee.
    replace (map (env2 f1 f2) rows) with
      (map (r_env f2 (kk f1) (kk f2 - kk f1) (N / p2 (kk f1))) (map (env1 f1) rows))
      by (rewrite map_map; reflexivity).
    revert Ee.
    destruct (py_index _ _) as [w|]; [|discriminate]. cbn [bind].
    destruct (np_cdgmm _ _ _) as [w1|]; [|discriminate]. cbn [bind].
    destruct (np_subsample _ _ _) as [w2|]; [|discriminate]. cbn [bind].
    destruct (np_ifft _ _) as [w3|]; [|discriminate]. cbn [bind].
    intros ->. reflexivity. }
  rewrite EE. clear EE Ee. rewrite Hquot in Re.
  change (rows_ok pre (N / p2 (kk f2)) (map (env2 f1 f2) rows)) in Re.
  destruct al eqn:Eal.
  - rewrite np_rfft_of; [|exact Re|exact Hpos2]. cbn [bind].
    rewrite (Z.max_l (ls - kk f2) 0) by (specialize (Hle2 eq_refl); lia).
    replace (kk f1 + (kk f2 - kk f1))%Z with (kk f2) by lia.
    destruct (adm_phi Ha Eal) as [Hdiv _].
    destruct (p2_divide (kk f2) ls N) as (_ & Hdl & Hql); [specialize (Hle2 eq_refl); lia|exact Hdiv|].
    destruct (low_rows pre _ _ Re Hpos2 phi (kk f2) (ls - kk f2)
       (fun S_r => Ok [mk_path S_r [f_j f1; f_j f2] [n1; n2]])) as [E3 R3];
      [lia|specialize (Hle2 eq_refl); lia|apply Hphi; reflexivity|exact Hdl|].
    rewrite E3. eexists. split; [reflexivity|]. constructor; [|constructor].
    unfold good. cbn [p_coef p_n]. unfold resolution, value. rewrite E1, E2. unfold out2. rewrite Eal.
    rewrite Hql in R3. rewrite Hql. rewrite map_map in *. auto.
  - eexists. split; [reflexivity|]. constructor; [|constructor].
    unfold good. cbn [p_coef p_n]. unfold resolution, value. rewrite E1, E2. unfold out2. rewrite Eal.
    replace (f_j f2) with (kk f2) by (unfold kk; now rewrite Eal). auto.
Qed.

Lemma order1_rows n1 f1 : nth_error psi1s n1 = Some f1 ->
  exists l, order1 np phi (if two then Some psi2s else None) (of_rows Complex pre N (map (o_fft o) rows))
              ls al (n1, f1) = Ok l /\ Forall good l.
Proof.
  intros E1. pose proof (adm_N Ha) as HN. pose proof (adm_ls Ha) as Hls. unfold order1, order1_modulus.
  destruct (adm_psi1 Ha f1 (nth_error_In _ _ E1)) as (Hj1 & Hlev & Hd1 & Hphi).
  destruct (kk_ok f1 Hj1 Hd1) as (Hk1 & Hdiv1 & Hle1 & Hpos1).
  change (if al then Z.min (f_j f1) ls else f_j f1) with (kk f1).
  cbn [numpy_backend be_cdgmm be_subsample be_ifft be_modulus be_rfft be_irfft].
  destruct (env_rows pre N rows Hr HN f1 0 (kk f1)) as [Ee Re]; [lia|lia|exact Hlev|exact Hdiv1|].
  rewrite Ee. cbn [bind]. change (map (r_env f1 0 (kk f1) N) rows) with (map (env1 f1) rows) in *.
  assert (EF : np_rfft o (of_rows Real pre (N / p2 (kk f1)) (map (env1 f1) rows)) =
               Ok (of_rows Complex pre (N / p2 (kk f1)) (map (o_fft o) (map (env1 f1) rows))))
    by (apply np_rfft_of; assumption).
  (* order-two part *)
  assert (E2 : two = true -> exists ll,
     mapM (order2 np phi (of_rows Complex pre (N / p2 (kk f1)) (map (o_fft o) (map (env1 f1) rows)))
             n1 (f_j f1) (kk f1) ls al) (enumerate psi2s) = Ok ll /\ Forall good (concat ll)).
  { intros Htwo. destruct (mapM_total (order2 np phi (of_rows Complex pre (N / p2 (kk f1))
        (map (o_fft o) (map (env1 f1) rows))) n1 (f_j f1) (kk f1) ls al) (enumerate psi2s)) as [ll Ell].
    - intros [n2 f2] Hin. apply In_enumerate in Hin.
      destruct (order2_rows n1 f1 n2 f2 E1 Hin Htwo) as (l & El & _). eauto.
    - exists ll. split; [exact Ell|]. apply mapM_ok in Ell.
      apply Forall_forall. intros p Hp. apply in_concat in Hp. destruct Hp as (l & Hl & Hp).
      destruct (Forall2_In_r _ _ _ _ Ell Hl) as ([n2 f2] & Hin & El). apply In_enumerate in Hin.
      destruct (order2_rows n1 f1 n2 f2 E1 Hin Htwo) as (l' & El' & Fl).
      rewrite El in El'. injection El'; intros <-. rewrite Forall_forall in Fl. auto. }
  assert (G1 : exists p1, (if al then
      (lp <- py_index (f_levels phi) (kk f1) ;;
       S_1_c <- np_cdgmm o (of_rows Complex pre (N / p2 (kk f1)) (map (o_fft o) (map (env1 f1) rows))) lp ;;
       S_1_hat <- np_subsample o S_1_c (pow2 (Z.max (ls - kk f1) 0)) ;;
       S_1_r <- np_irfft o S_1_hat ;; Ok (mk_path S_1_r [f_j f1] [n1]))%res
    else Ok (mk_path (of_rows Real pre (N / p2 (kk f1)) (map (env1 f1) rows)) [f_j f1] [n1])) = Ok p1 /\ good p1).
  { destruct al eqn:Eal.
    - rewrite (Z.max_l (ls - kk f1) 0) by (specialize (Hle1 eq_refl); lia).
      destruct (adm_phi Ha Eal) as [Hdiv _].
      destruct (p2_divide (kk f1) ls N) as (_ & Hdl & Hql); [specialize (Hle1 eq_refl); lia|exact Hdiv|].
      destruct (low_rows pre _ _ Re Hpos1 phi (kk f1) (ls - kk f1)
        (fun S_r => Ok (mk_path S_r [f_j f1] [n1]))) as [E3 R3];
        [lia|specialize (Hle1 eq_refl); lia|apply Hphi; reflexivity|exact Hdl|].
      rewrite E3. eexists. split; [reflexivity|].
      unfold good. cbn [p_coef p_n]. unfold resolution, value. rewrite E1. unfold out1. rewrite Eal.
      rewrite Hql in R3. rewrite Hql. rewrite map_map in *. auto.
    - eexists. split; [reflexivity|].
      unfold good. cbn [p_coef p_n]. unfold resolution, value. rewrite E1. unfold out1. rewrite Eal.
      replace (f_j f1) with (kk f1) by (unfold kk; now rewrite Eal). auto. }
  destruct G1 as (p1 & Ep1 & Gp1).
  destruct two eqn:Etwo.
  - rewrite orb_true_r, EF. cbn [bind]. cbn zeta. rewrite Ep1. cbn [bind].
    destruct (E2 eq_refl) as (ll & El & Fl). rewrite El. cbn [bind].
    eexists. split; [reflexivity|]. constructor; assumption.
  - rewrite orb_false_r. destruct al eqn:Eal.
    + rewrite EF. cbn [bind]. cbn zeta. rewrite Ep1. cbn [bind concat].
      eexists. split; [reflexivity|]. constructor; [assumption|constructor].
    + cbn [bind]. injection Ep1; intros Ep1'. eexists. split; [reflexivity|].
      rewrite Ep1'. constructor; [assumption|constructor].
Qed.

Theorem scattering1d_rows : exists gen,
  scattering1d np (of_rows Real pre N rows) phi (if two then [psi1s; psi2s] else [psi1s]) ls al = Ok gen /\
  Forall good gen.
Proof.
  pose proof (adm_N Ha) as HN. unfold scattering1d. cbn [numpy_backend be_rfft].
  rewrite np_rfft_of by assumption. cbn [bind].
  destruct order0_rows as (p0 & E0 & G0 & _). rewrite E0. cbn [bind].
  replace (py_index (if two then [psi1s; psi2s] else [psi1s]) 0) with (Ok psi1s) by (destruct two; reflexivity).
  cbn [bind].
  replace (nth_error (if two then [psi1s; psi2s] else [psi1s]) 1) with (if two then Some psi2s else None)
    by (destruct two; reflexivity).
  set (F := order1 _ _ _ _ _ _).
  destruct (mapM_total F (enumerate psi1s)) as [ll Ell].
  - intros [n1 f1] Hin. apply In_enumerate in Hin. destruct (order1_rows n1 f1 Hin) as (l & El & _). eauto.
  - rewrite Ell. cbn [bind]. eexists. split; [reflexivity|]. constructor; [exact G0|].
    apply mapM_ok in Ell. apply Forall_forall. intros p Hp. apply in_concat in Hp. destruct Hp as (l & Hl & Hp).
    destruct (Forall2_In_r _ _ _ _ Ell Hl) as ([n1 f1] & Hin & El). apply In_enumerate in Hin.
    destruct (order1_rows n1 f1 Hin) as (l' & El' & Fl). unfold F in El.
    rewrite El in El'. injection El'; intros <-. rewrite Forall_forall in Fl. auto.
Qed.
End Run.
End Whole.
End RowEval.
