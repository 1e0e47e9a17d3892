(** Filtering and subsampling in the Fourier domain are circular convolution and decimation in time. *)
From Coq Require Import Reals ZArith List Lia Lra Arith.
From Coquelicot Require Import Coquelicot.
From Verif Require Import Base NdArray NdProofs Backend Core1d Rows1d ComplexOps Dft.
Import ListNotations.
Local Open Scope C_scope.

(** ** Vocabulary of the numerical properties *)
(** Circular convolution of two sequences of the same length, at instant [n]. *)
Definition cconv (x h : list C) (n : Z) : C :=
  csum (length x) (fun m => at_ x m * at_ h (Z.to_nat ((n - Z.of_nat m) mod Z.of_nat (length x)))).
(** |x * h| sampled every [k] instants, [h] the inverse DFT of the frequency response [w]. *)
Definition sampled_envelope (x w : list C) (k : nat) : list C :=
  map (fun u => RtoC (Cmod (cconv x (idft w) (Z.of_nat (k * u))))) (seq 0 (length x / k)).
(** The real part of x * h sampled every [k] instants. *)
Definition sampled_lowpass (x w : list C) (k : nat) : list C :=
  map (fun u => RtoC (Re (cconv x (idft w) (Z.of_nat (k * u))))) (seq 0 (length x / k)).

Lemma sampled_envelope_length x w k : length (sampled_envelope x w k) = (length x / k)%nat.
Proof. unfold sampled_envelope. now rewrite map_length, seq_length. Qed.
Lemma sampled_lowpass_length x w k : length (sampled_lowpass x w k) = (length x / k)%nat.
Proof. unfold sampled_lowpass. now rewrite map_length, seq_length. Qed.

(** ** Rows *)
Lemma osum_csum n f : osum complex_ops (map f (seq 0 n)) = csum n f.
Proof. rewrite csum_fold. reflexivity. Qed.
Lemma osum_at l : osum complex_ops l = csum (length l) (at_ l).
Proof.
  rewrite csum_fold. unfold osum. cbn [o_add o_zero complex_ops]. f_equal.
  apply nth_ext with (d := RtoC 0) (d' := RtoC 0); [now rewrite map_length, seq_length|]. intros i Hi.
  change (nth i (map (at_ l) (seq 0 (length l))) 0) with (at_ (map (at_ l) (seq 0 (length l))) i). now rewrite at_map_seq.
Qed.
Lemma at_periodize k m row i : (i < m)%nat ->
  at_ (periodize_row complex_ops k m row) i = csum k (fun r => at_ row (r * m + i)) / RtoC (INR k).
Proof.
  intros Hi. unfold periodize_row. rewrite at_map_seq by exact Hi. cbn [o_divn complex_ops]. f_equal. apply osum_csum.
Qed.
Lemma at_periodize_sum k m row i : (i < m)%nat ->
  at_ (periodize_sum_row complex_ops k m row) i = csum k (fun r => at_ row (r * m + i)).
Proof. intros Hi. unfold periodize_sum_row. rewrite at_map_seq by exact Hi. apply osum_csum. Qed.
Lemma at_mul b row i : length b = length row -> at_ (mul_row complex_ops b row) i = at_ row i * at_ b i.
Proof.
  revert b i. induction row as [|x row IH]; intros [|y b] i H; try discriminate; unfold at_, mul_row.
  - cbn. destruct i; ring.
  - cbn. destruct i; [reflexivity|]. apply (IH b i). now injection H.
Qed.

Lemma subsample_is_decimation k m X : (0 < k)%nat -> (0 < m)%nat -> length X = (k * m)%nat ->
  forall u, (u < m)%nat -> at_ (idft (periodize_row complex_ops k m X)) u = at_ (idft X) (k * u).
Proof.
  intros Hk Hm HX u Hu.
  assert (El : length (periodize_row complex_ops k m X) = m) by apply periodize_row_length.
  rewrite at_idft by (rewrite El; exact Hu). rewrite El, at_idft by (rewrite HX; nia). rewrite HX.
  rewrite (idft_at_ext m _ (fun i => csum k (fun r => at_ X (r * m + i)) / RtoC (INR k))).
  - rewrite subsample_idft by assumption. f_equal. lia.
  - intros i Hi. now apply at_periodize.
Qed.

Lemma idft_product x w n : length w = length x -> (0 < length x)%nat ->
  idft_at (length x) (at_ (mul_row complex_ops w (dft x))) n = cconv x (idft w) n.
Proof.
  intros Hw Hx.
  rewrite (idft_at_ext (length x) _ (fun k => dft_at (length x) (at_ x) (Z.of_nat k) * at_ w k)).
  2:{ intros k Hk. rewrite at_mul by (now rewrite dft_length). now rewrite at_dft. }
  rewrite convolution by assumption. unfold cconv. apply csum_ext. intros m Hm. f_equal.
  rewrite <- Hw. symmetry. apply at_idft_mod. lia.
Qed.

(** Product with [w] in the Fourier domain, subsampling by [k], inverse transform. *)
Theorem filter_subsample x w k u : length w = length x -> (0 < k)%nat -> Nat.divide k (length x) -> (u < length x / k)%nat ->
  at_ (idft (periodize_row complex_ops k (length x / k) (mul_row complex_ops w (dft x)))) u =
  cconv x (idft w) (Z.of_nat (k * u)).
Proof.
  intros Hw Hk [m Hm] Hu. assert (Em : (length x / k = m)%nat) by (rewrite Hm; apply Nat.div_mul; lia). rewrite Em in *.
  assert (El : length (mul_row complex_ops w (dft x)) = length x) by (rewrite mul_row_length; rewrite dft_length; congruence).
  rewrite subsample_is_decimation; [|lia|lia|rewrite El; lia|exact Hu].
  rewrite at_idft by (rewrite El; nia). rewrite El. apply idft_product; [exact Hw|nia].
Qed.

Section Steps.
Context {P : Type}.
Notation filter := (Core1d.filter (nd C) P).
Variables (f : filter) (l k : Z) (n : nat) (row : list C).
Hypotheses (Hrow : length row = n) (Hlev : level_ok f l n) (Hdiv : Nat.divide (p2 k) n).

Lemma lev_length : length (lev f l) = n.
Proof. destruct Hlev as (w & Ew & _ & _ & El). unfold lev. now rewrite Ew. Qed.

Lemma r_env_spec : r_env complex_ops f l k n row = sampled_envelope row (lev f l) (p2 k).
Proof.
  pose proof lev_length as Hl.
  apply list_ext; [rewrite r_env_length by (split; intros; apply dft_length || apply idft_length); now rewrite sampled_envelope_length, Hrow|].
  rewrite r_env_length by (split; intros; apply dft_length || apply idft_length). intros u Hu.
  unfold sampled_envelope. rewrite at_map_seq by now rewrite Hrow.
  unfold r_env. cbn [o_abs o_ifft o_fft complex_ops]. unfold at_ at 1.
  rewrite (nth_indep _ (RtoC 0) (RtoC (Cmod 0))).
  - rewrite (map_nth (fun z => RtoC (Cmod z))). f_equal. f_equal. fold (at_ (idft (r_sub complex_ops k n (mul_row complex_ops (lev f l) (dft row)))) u).
    unfold r_sub. rewrite <- Hrow. apply filter_subsample; try congruence. apply p2_pos.
  - rewrite map_length, idft_length. unfold r_sub. now rewrite periodize_row_length.
Qed.
Lemma r_low_spec : r_low complex_ops f l k n row = sampled_lowpass row (lev f l) (p2 k).
Proof.
  pose proof lev_length as Hl.
  apply list_ext; [rewrite r_low_length by (split; intros; apply dft_length || apply idft_length); now rewrite sampled_lowpass_length, Hrow|].
  rewrite r_low_length by (split; intros; apply dft_length || apply idft_length). intros u Hu.
  unfold sampled_lowpass. rewrite at_map_seq by now rewrite Hrow.
  unfold r_low. cbn [o_re o_ifft o_fft complex_ops]. unfold at_ at 1.
  rewrite (nth_indep _ (RtoC 0) (RtoC (Re 0))).
  - rewrite (map_nth (fun z => RtoC (Re z))). f_equal. f_equal. fold (at_ (idft (r_sub complex_ops k n (mul_row complex_ops (lev f l) (dft row)))) u).
    unfold r_sub. rewrite <- Hrow. apply filter_subsample; try congruence. apply p2_pos.
  - rewrite map_length, idft_length. unfold r_sub. now rewrite periodize_row_length.
Qed.
End Steps.

(** ** Algebra of the circular convolution *)
Lemma at_over l i : (length l <= i)%nat -> at_ l i = 0.
Proof. intros H. unfold at_. now apply nth_overflow. Qed.
Lemma at_map_C (g : C -> C) l i : (i < length l)%nat -> at_ (map g l) i = g (at_ l i).
Proof.
  intros H. unfold at_. rewrite (nth_indep _ (RtoC 0) (g 0)) by (rewrite map_length; exact H). apply map_nth.
Qed.
Lemma cconv_scal c x h n : cconv (map (Cmult c) x) h n = c * cconv x h n.
Proof.
  unfold cconv. rewrite map_length, <- csum_scal. apply csum_ext. intros m Hm. rewrite at_map_C by exact Hm. ring.
Qed.
Lemma cconv_mod x h n : (0 < length x)%nat -> cconv x h (n mod Z.of_nat (length x)) = cconv x h n.
Proof.
  intros H. unfold cconv. apply csum_ext. intros m Hm. f_equal. f_equal. f_equal. rewrite Zminus_mod_idemp_l. reflexivity.
Qed.
Lemma cconv_congr x h a b : (a mod Z.of_nat (length x) = b mod Z.of_nat (length x))%Z -> (0 < length x)%nat -> cconv x h a = cconv x h b.
Proof. intros E H. rewrite <- cconv_mod, E by exact H. now apply cconv_mod. Qed.

(** Circular shift by [d]: the sample at [n] is the one that was at [n - d]. *)
Definition rotate (d : Z) (x : list C) : list C :=
  map (fun n => at_ x (Z.to_nat ((Z.of_nat n - d) mod Z.of_nat (length x)))) (seq 0 (length x)).
Lemma rotate_length d x : length (rotate d x) = length x.
Proof. unfold rotate. now rewrite map_length, seq_length. Qed.
Lemma at_rotate d x n : (n < length x)%nat -> at_ (rotate d x) n = at_ x (Z.to_nat ((Z.of_nat n - d) mod Z.of_nat (length x))).
Proof. intros H. unfold rotate. now rewrite at_map_seq. Qed.

Lemma cconv_rotate d x h n : (0 < length x)%nat -> cconv (rotate d x) h n = cconv x h (n - d).
Proof.
  intros Hx. unfold cconv. rewrite rotate_length. set (N := Z.of_nat (length x)).
  set (g := fun a : Z => at_ x (Z.to_nat (a mod N)) * at_ h (Z.to_nat ((n - d - a) mod N))).
  rewrite (csum_ext _ _ (fun m => g (Z.of_nat m + - d)%Z)).
  - rewrite (csum_shift (length x) Hx g).
    + apply csum_ext. intros m Hm. unfold g. rewrite (Z.mod_small (Z.of_nat m)) by (unfold N; lia). now rewrite Nat2Z.id.
    + intros a b E. unfold g. fold N in E. rewrite E. f_equal. f_equal. f_equal.
      rewrite (Zminus_mod (n - d) a), E, <- Zminus_mod. reflexivity.
  - intros m Hm. rewrite at_rotate by exact Hm. unfold g. fold N. f_equal; f_equal; f_equal; f_equal; lia.
Qed.

Lemma rotate_envelope d x w k : (0 < k)%nat -> Nat.divide k (length x) -> (0 < length x)%nat ->
  sampled_envelope (rotate (Z.of_nat k * d) x) w k = rotate d (sampled_envelope x w k).
Proof.
  intros Hk [m Hm] Hx. apply list_ext; [now rewrite rotate_length, !sampled_envelope_length, rotate_length|].
  rewrite sampled_envelope_length, rotate_length. intros u Hu.
  rewrite at_rotate by (rewrite sampled_envelope_length; exact Hu). rewrite sampled_envelope_length.
  assert (Em : (length x / k = m)%nat) by (rewrite Hm; apply Nat.div_mul; lia). rewrite Em in *.
  pose proof (Z.mod_pos_bound (Z.of_nat u - d) (Z.of_nat m) ltac:(lia)) as B.
  unfold sampled_envelope. rewrite at_map_seq by (rewrite rotate_length, Em; exact Hu).
  rewrite at_map_seq by (rewrite Em; lia). rewrite cconv_rotate by exact Hx. f_equal. f_equal.
  apply cconv_congr; [|exact Hx]. rewrite !Nat2Z.inj_mul, Z2Nat.id by lia.
  rewrite Hm, Nat2Z.inj_mul, (Z.mul_comm (Z.of_nat m)), <- Z.mul_sub_distr_l, !Zmult_mod_distr_l, Z.mod_mod by lia. reflexivity.
Qed.
Lemma rotate_lowpass d x w k : (0 < k)%nat -> Nat.divide k (length x) -> (0 < length x)%nat ->
  sampled_lowpass (rotate (Z.of_nat k * d) x) w k = rotate d (sampled_lowpass x w k).
Proof.
  intros Hk [m Hm] Hx. apply list_ext; [now rewrite rotate_length, !sampled_lowpass_length, rotate_length|].
  rewrite sampled_lowpass_length, rotate_length. intros u Hu.
  rewrite at_rotate by (rewrite sampled_lowpass_length; exact Hu). rewrite sampled_lowpass_length.
  assert (Em : (length x / k = m)%nat) by (rewrite Hm; apply Nat.div_mul; lia). rewrite Em in *.
  pose proof (Z.mod_pos_bound (Z.of_nat u - d) (Z.of_nat m) ltac:(lia)) as B.
  unfold sampled_lowpass. rewrite at_map_seq by (rewrite rotate_length, Em; exact Hu).
  rewrite at_map_seq by (rewrite Em; lia). rewrite cconv_rotate by exact Hx. f_equal. f_equal.
  apply cconv_congr; [|exact Hx]. rewrite !Nat2Z.inj_mul, Z2Nat.id by lia.
  rewrite Hm, Nat2Z.inj_mul, (Z.mul_comm (Z.of_nat m)), <- Z.mul_sub_distr_l, !Zmult_mod_distr_l, Z.mod_mod by lia. reflexivity.
Qed.

(** Scaling by a real number. *)
Lemma Re_scal c z : Re (RtoC c * z) = (c * Re z)%R.
Proof. destruct z as [a b]. cbn. ring. Qed.
Lemma envelope_scal c x w k : sampled_envelope (map (Cmult (RtoC c)) x) w k = map (Cmult (RtoC (Rabs c))) (sampled_envelope x w k).
Proof.
  unfold sampled_envelope. rewrite map_length, map_map. apply map_ext. intros u.
  rewrite cconv_scal, Cmod_mult, Cmod_R, RtoC_mult. reflexivity.
Qed.
Lemma lowpass_scal c x w k : sampled_lowpass (map (Cmult (RtoC c)) x) w k = map (Cmult (RtoC c)) (sampled_lowpass x w k).
Proof.
  unfold sampled_lowpass. rewrite map_length, map_map. apply map_ext. intros u.
  rewrite cconv_scal, Re_scal, RtoC_mult. reflexivity.
Qed.

(** Adding a constant: only the zero frequency of the filter matters. *)
Lemma csum_idft w : (0 < length w)%nat -> csum (length w) (at_ (idft w)) = at_ w 0.
Proof.
  intros H. rewrite <- (dft_idft (length w) H (at_ w) 0 H). unfold dft_at. apply csum_ext. intros n Hn.
  rewrite at_idft by exact Hn. replace (- (Z.of_nat 0 * Z.of_nat n))%Z with 0%Z by lia. rewrite root_0 by exact H. ring.
Qed.
Lemma csum_reflect_mod N (h : list C) n : (0 < N)%nat ->
  csum N (fun m => at_ h (Z.to_nat ((n - Z.of_nat m) mod Z.of_nat N))) = csum N (at_ h).
Proof.
  intros HN. set (g := fun a : Z => at_ h (Z.to_nat ((- a) mod Z.of_nat N))).
  assert (Hg : forall a b, (a mod Z.of_nat N = b mod Z.of_nat N)%Z -> g a = g b).
  { intros a b E. unfold g. f_equal. f_equal. rewrite <- (Z.sub_0_l a), <- (Z.sub_0_l b). rewrite Zminus_mod, E, <- Zminus_mod. reflexivity. }
  rewrite (csum_ext N _ (fun m => g (Z.of_nat m + - n)%Z)) by (intros; unfold g; f_equal; f_equal; f_equal; lia).
  rewrite (csum_shift N HN g (- n) Hg).
  (* reversal *)
  rewrite <- (csum_shift N HN g (- (Z.of_nat N - 1)) Hg).
  rewrite (csum_ext N _ (fun m => at_ h (N - 1 - m))).
  - clear. induction N as [|N IH]; [reflexivity|]. rewrite csum_first. replace (S N - 1 - 0)%nat with N by lia.
    rewrite (csum_ext N _ (fun m => at_ h (N - 1 - m))) by (intros; f_equal; lia). rewrite IH. cbn [csum]. ring.
  - intros m Hm. unfold g. f_equal. rewrite Z.mod_small by lia. lia.
Qed.
Lemma cconv_const c x h n : (0 < length x)%nat -> length h = length x ->
  (forall m, (m < length x)%nat -> at_ x m = c) -> cconv x h n = c * csum (length h) (at_ h).
Proof.
  intros Hx Hh Hc. unfold cconv. rewrite (csum_ext _ _ (fun m => c * at_ h (Z.to_nat ((n - Z.of_nat m) mod Z.of_nat (length x))))).
  - rewrite csum_scal, csum_reflect_mod by exact Hx. now rewrite Hh.
  - intros m Hm. now rewrite Hc.
Qed.
Lemma cconv_add_const c x w n : (0 < length x)%nat -> length w = length x ->
  cconv (map (Cplus c) x) (idft w) n = cconv x (idft w) n + c * at_ w 0.
Proof.
  intros Hx Hw. rewrite <- (csum_idft w) by lia. replace (csum (length w) (at_ (idft w))) with (csum (length (idft w)) (at_ (idft w))) by now rewrite idft_length.
  rewrite <- (cconv_const c (repeat c (length x)) (idft w) n); rewrite ?repeat_length, ?idft_length; try lia.
  - unfold cconv. rewrite map_length, repeat_length, <- csum_plus. apply csum_ext. intros m Hm.
    rewrite at_map_C by exact Hm.
    replace (at_ (repeat c (length x)) m) with c; [ring|].
    unfold at_. rewrite (nth_indep _ _ c) by (rewrite repeat_length; lia). symmetry. apply nth_repeat.
  - intros m Hm. unfold at_. rewrite (nth_indep _ _ c) by (rewrite repeat_length; lia). apply nth_repeat.
Qed.

(** Young's inequality. *)
Definition l1 (h : list C) : R := fst (csum (length h) (fun i => RtoC (Cmod (at_ h i)))).
Lemma csum_real_le n f g : (forall i, (i < n)%nat -> (f i <= g i)%R) ->
  (fst (csum n (fun i => RtoC (f i))) <= fst (csum n (fun i => RtoC (g i))))%R.
Proof. induction n as [|n IH]; intros H; cbn; [lra|]. specialize (IH (fun i Hi => H i ltac:(lia))). specialize (H n ltac:(lia)). lra. Qed.
Lemma cconv_bound x h n B : (0 < length x)%nat -> length h = length x -> (forall i, (i < length x)%nat -> (Cmod (at_ x i) <= B)%R) ->
  (Cmod (cconv x h n) <= B * l1 h)%R.
Proof.
  intros Hx Hh HB. unfold cconv. eapply Rle_trans; [apply csum_Cmod|].
  eapply Rle_trans.
  - apply csum_real_le with (g := fun m => (B * Cmod (at_ h (Z.to_nat ((n - Z.of_nat m) mod Z.of_nat (length x)))))%R).
    intros i Hi. rewrite Cmod_mult. apply Rmult_le_compat_r; [apply Cmod_ge_0|now apply HB].
  - right. unfold l1. rewrite Hh.
    pose (habs := map (fun z => RtoC (Cmod z)) h).
    assert (E : forall i, at_ habs i = RtoC (Cmod (at_ h i))).
    { intros i. destruct (Nat.lt_ge_cases i (length h)) as [Hi|Hi].
      - unfold habs. rewrite at_map_C by exact Hi. reflexivity.
      - rewrite !at_over by (unfold habs; rewrite ?map_length; exact Hi). now rewrite Cmod_0. }
    rewrite (csum_ext (length x) (fun i => RtoC (Cmod (at_ h i))) (at_ habs)) by (intros; now rewrite E).
    rewrite <- (csum_reflect_mod (length x) habs n Hx).
    rewrite (csum_ext _ _ (fun m => RtoC B * at_ habs (Z.to_nat ((n - Z.of_nat m) mod Z.of_nat (length x))))).
    + rewrite csum_scal. cbn [fst Cmult RtoC]. ring_simplify. 
      destruct (csum (length x) _) as [a b]. cbn. ring.
    + intros i Hi. rewrite E, RtoC_mult. reflexivity.
Qed.
