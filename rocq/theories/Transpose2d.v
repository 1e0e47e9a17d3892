(** Transposed images, filters and coefficients of the 2-D transform. *)
From Coq Require Import String Reals ZArith List Lia Lra Arith Bool.
From Coquelicot Require Import Coquelicot.
From Verif Require Import Base BaseProofs NdArray NdProofs Backend Utils1dProofs Rows1d ComplexOps Dft Conv1d StackProofs Backend2d Core2d FilterBank2d Frontend2d Images Rows2d
  Construct1d Pad2d Eval2d Dft2 Value2d Conv2d Keys2d Path2d Stability1d.
Import ListNotations.
Local Open Scope nat_scope.

(** [y] of N x M pixels is the transpose of [x] of M x N pixels. *)
Definition transposed (M N : nat) (x y : list C) : Prop :=
  List.length x = M * N /\ List.length y = N * M /\ forall u v, u < M -> v < N -> px M y v u = px N x u v.
(** [y] is [x] read at the opposite frequencies. *)
Definition opposite (M N : nat) (x y : list C) : Prop :=
  List.length x = M * N /\ List.length y = M * N /\ forall u v, u < M -> v < N -> px N y u v = px N x ((M - u) mod M) ((N - v) mod N).
Definition real_img (M N : nat) (x : list C) : Prop := forall u v, u < M -> v < N -> Im (px N x u v) = 0%R.

Lemma transposed_img M N f g : (forall u v, u < M -> v < N -> g v u = f u v) -> transposed M N (img M N f) (img N M g).
Proof. intros H. split; [apply img_length|]. split; [apply img_length|]. intros u v Hu Hv. rewrite !px_img by assumption. now apply H. Qed.

Lemma dft2_at_swap M N x u v : dft2_at M N x u v = dft2_at N M (fun b a => x a b) v u.
Proof.
  unfold dft2_at. rewrite (dft_at_ext N (fun b => dft_at M (fun a => x a b) u) (fun b => csum M (fun a => root M (- (u * Z.of_nat a)) * x a b)%C)).
  - rewrite dft_at_linear. unfold dft_at at 1. apply csum_ext. intros a _. apply Cmult_comm.
  - intros b _. unfold dft_at. apply csum_ext. intros a _. apply Cmult_comm.
Qed.
Lemma idft_at_sum N (f : nat -> C) n : idft_at N f n = csum N (fun k => (root N (Z.of_nat k * n) / RtoC (INR N)) * f k)%C.
Proof. unfold idft_at. unfold Cdiv at 1. rewrite <- csum_scal_r. apply csum_ext. intros a _. unfold Cdiv. ring. Qed.
Lemma idft2_at_swap M N x u v : idft2_at M N x u v = idft2_at N M (fun b a => x a b) v u.
Proof.
  unfold idft2_at. rewrite (idft_at_ext N (fun b => idft_at M (fun a => x a b) u) (fun b => csum M (fun a => (root M (Z.of_nat a * u) / RtoC (INR M)) * x a b)%C)).
  - rewrite idft_at_linear. apply idft_at_sum.
  - intros b _. apply idft_at_sum.
Qed.
Lemma transposed_idft2 M N x y : transposed M N x y -> transposed M N (idft2 M N x) (idft2 N M y).
Proof.
  intros (Hx & Hy & H). apply transposed_img. intros u v Hu Hv. rewrite idft2_at_swap. apply idft2_at_ext. intros a b Ha Hb. now apply H.
Qed.
Lemma transposed_conv2 M N x y h k u v : 0 < M -> 0 < N -> transposed M N x y -> transposed M N h k -> conv2 N M y k v u = conv2 M N x h u v.
Proof.
  intros HM HN (_ & _ & H) (_ & _ & K). unfold conv2. rewrite csum_swap. apply csum_ext. intros a Ha. apply csum_ext. intros b Hb. rewrite H by assumption. f_equal. apply K.
  - pose proof (Z.mod_pos_bound (u - Z.of_nat a) (Z.of_nat M) ltac:(lia)). lia.
  - pose proof (Z.mod_pos_bound (v - Z.of_nat b) (Z.of_nat N) ltac:(lia)). lia.
Qed.
Lemma transposed_modulus M N x y w w' r : 0 < M -> 0 < N -> transposed M N x y -> transposed M N w w' ->
  transposed (M / r) (N / r) (sampled_modulus2 M N x w r) (sampled_modulus2 N M y w' r).
Proof. intros HM HN Hx Hw. apply transposed_img. intros u v _ _. do 2 f_equal. apply transposed_conv2; try assumption. now apply transposed_idft2. Qed.
Lemma transposed_lowpass M N x y w w' r : 0 < M -> 0 < N -> transposed M N x y -> transposed M N w w' ->
  transposed (M / r - 2) (N / r - 2) (sampled_lowpass2 M N x w r) (sampled_lowpass2 N M y w' r).
Proof. intros HM HN Hx Hw. apply transposed_img. intros u v _ _. do 2 f_equal. apply transposed_conv2; try assumption. now apply transposed_idft2. Qed.
Lemma transposed_restrict M N w w' r : 0 < r -> transposed M N w w' -> transposed (M / r) (N / r) (restrict2 M N w r) (restrict2 N M w' r).
Proof.
  intros Hr (_ & _ & H). apply transposed_img. intros k l Hk Hl. apply H; apply band_lt; try assumption; apply Nat.div_le_upper_bound; nia.
Qed.
Lemma px_real_fft2 M N x u v : List.length x = M * N -> u < M -> v < N -> px N (real_fft2 M N x) u v = RtoC (Re (dft2_at M N (px N x) (Z.of_nat u) (Z.of_nat v))).
Proof.
  intros Hx Hu Hv. unfold real_fft2, px at 1. rewrite (iat_map (fun c => RtoC (Re c)) (RtoC 0) (RtoC 0) M); try assumption.
  - do 2 f_equal. now apply px_dft2.
  - apply (sep2_length cops); [apply dft_length|exact Hx].
Qed.
Lemma transposed_fft M N x y : transposed M N x y -> transposed M N (real_fft2 M N x) (real_fft2 N M y).
Proof.
  intros (Hx & Hy & H). split; [now apply real_fft2_length|]. split; [now apply real_fft2_length|]. intros u v Hu Hv.
  rewrite !px_real_fft2 by assumption. do 2 f_equal. rewrite dft2_at_swap. apply dft2_at_ext. intros b a Hb Ha. now apply H.
Qed.

(** ** Opposite frequencies *)
Lemma csum_opposite N (g : nat -> C) : 0 < N -> csum N (fun k => g ((N - k) mod N)) = csum N g.
Proof.
  intros HN. pose proof (csum_reflect_mod N (map g (seq 0 N)) 0 HN) as E.
  assert (A : forall i, i < N -> at_ (map g (seq 0 N)) i = g i) by (intros i Hi; now apply at_map_seq).
  rewrite (csum_ext N (at_ (map g (seq 0 N))) g) in E by exact A. rewrite <- E. apply csum_ext. intros k Hk.
  assert (Ek : Z.to_nat ((0 - Z.of_nat k) mod Z.of_nat N) = (N - k) mod N).
  { rewrite <- (Nat2Z.id ((N - k) mod N)). f_equal. rewrite Nat2Z.inj_mod, Nat2Z.inj_sub by lia.
    replace (Z.of_nat N - Z.of_nat k)%Z with (0 - Z.of_nat k + 1 * Z.of_nat N)%Z by ring. symmetry. apply Z_mod_plus_full. }
  rewrite Ek, A; [reflexivity|]. apply Nat.mod_upper_bound. lia.
Qed.
Lemma idft_at_opposite N (f : nat -> C) n : 0 < N -> idft_at N (fun k => f ((N - k) mod N)) n = idft_at N f (- n).
Proof.
  intros HN. unfold idft_at. f_equal. rewrite <- (csum_opposite N (fun k => f k * root N (Z.of_nat k * - n))%C HN). apply csum_ext. intros k Hk. f_equal.
  apply root_congr; [exact HN|].
  rewrite Nat2Z.inj_mod, Nat2Z.inj_sub by lia. rewrite Zmult_mod_idemp_l. replace ((Z.of_nat N - Z.of_nat k) * - n)%Z with (Z.of_nat k * n + (- n) * Z.of_nat N)%Z by ring.
  now rewrite Z_mod_plus_full.
Qed.
Lemma Cconj_div_R a r : r <> 0%R -> Cconj (a / RtoC r)%C = (Cconj a / RtoC r)%C.
Proof. intros Hr. unfold Cdiv. rewrite Cconj_mult. f_equal. rewrite <- RtoC_inv by exact Hr. unfold Cconj, RtoC. cbn [fst snd]. now rewrite Ropp_0. Qed.
Lemma idft_at_Cconj N (f : nat -> C) n : 0 < N -> idft_at N (fun k => Cconj (f k)) (- n) = Cconj (idft_at N f n).
Proof.
  intros HN. unfold idft_at. rewrite Cconj_div_R by (apply not_0_INR; lia). f_equal. rewrite csum_conj. apply csum_ext. intros k Hk. rewrite Cconj_mult. f_equal.
  rewrite <- root_opp by exact HN. f_equal. lia.
Qed.
Lemma dft_at_Cconj N (f : nat -> C) n : 0 < N -> dft_at N (fun k => Cconj (f k)) (- n) = Cconj (dft_at N f n).
Proof.
  intros HN. unfold dft_at. rewrite csum_conj. apply csum_ext. intros k Hk. rewrite Cconj_mult. f_equal. rewrite <- root_opp by exact HN. f_equal. lia.
Qed.
Lemma opposite_idft2 M N w w' u v : 0 < M -> 0 < N -> real_img M N w -> opposite M N w w' -> u < M -> v < N -> px N (idft2 M N w') u v = Cconj (px N (idft2 M N w) u v).
Proof.
  intros HM HN Hr (_ & _ & H) Hu Hv. unfold idft2. rewrite !px_img by assumption. unfold idft2_at.
  rewrite <- idft_at_Cconj by exact HM.
  rewrite (idft_at_ext M (fun a => idft_at N (fun b => px N w' a b) (Z.of_nat v)) (fun a => (fun a => idft_at N (fun b => px N w a b) (- Z.of_nat v)) ((M - a) mod M))).
  - etransitivity; [apply (idft_at_opposite M (fun a => idft_at N (fun b => px N w a b) (- Z.of_nat v)) _ HM)|]. apply idft_at_ext. intros a Ha. rewrite <- idft_at_Cconj by exact HN. apply idft_at_ext. intros b Hb. symmetry. apply conj_real. now apply Hr.
  - intros a Ha. cbv beta. rewrite <- (idft_at_opposite N (fun b => px N w ((M - a) mod M) b) _ HN). apply idft_at_ext. intros b Hb. now apply H.
Qed.
Lemma opposite_modulus M N x w w' r : 0 < M -> 0 < N -> real_img M N x -> real_img M N w -> opposite M N w w' -> sampled_modulus2 M N x w' r = sampled_modulus2 M N x w r.
Proof.
  intros HM HN Rx Rw Ho. unfold sampled_modulus2. apply img_ext. intros u v _ _. f_equal. rewrite <- (Cmod_conj (conv2 M N x (idft2 M N w) _ _)). f_equal.
  unfold conv2. rewrite csum_conj. apply csum_ext. intros a Ha. rewrite csum_conj. apply csum_ext. intros b Hb. rewrite Cconj_mult, (conj_real (px N x a b)) by now apply Rx. f_equal.
  apply opposite_idft2; try assumption.
  - pose proof (Z.mod_pos_bound (Z.of_nat (r * u) - Z.of_nat a) (Z.of_nat M) ltac:(lia)). lia.
  - pose proof (Z.mod_pos_bound (Z.of_nat (r * v) - Z.of_nat b) (Z.of_nat N) ltac:(lia)). lia.
Qed.
Lemma real_fft2_real M N x : List.length x = M * N -> real_img M N (real_fft2 M N x).
Proof. intros Hx u v Hu Hv. now rewrite px_real_fft2. Qed.
Lemma dft_at_neg N (f : nat -> C) k : 0 < N -> k < N -> dft_at N f (Z.of_nat ((N - k) mod N)) = dft_at N f (- Z.of_nat k).
Proof.
  intros HN Hk. apply dft_at_congr; [exact HN|]. rewrite Nat2Z.inj_mod, Nat2Z.inj_sub by lia. rewrite Zmod_mod.
  replace (Z.of_nat N - Z.of_nat k)%Z with (- Z.of_nat k + 1 * Z.of_nat N)%Z by ring. apply Z_mod_plus_full.
Qed.
Lemma conj_fft M N x : 0 < M -> 0 < N -> List.length x = M * N -> opposite M N (real_fft2 M N x) (real_fft2 M N (map Cconj x)).
Proof.
  intros HM HN Hx. split; [now apply real_fft2_length|]. split; [apply real_fft2_length; now rewrite map_length|]. intros u v Hu Hv.
  rewrite !px_real_fft2; try assumption; try (apply Nat.mod_upper_bound; lia); [|now rewrite map_length]. f_equal.
  unfold dft2_at. rewrite dft_at_neg by assumption.
  rewrite (dft_at_ext M (fun a => dft_at N (fun b => px N (map Cconj x) a b) (Z.of_nat v)) (fun a => Cconj (dft_at N (fun b => px N x a b) (Z.of_nat ((N - v) mod N))))).
  - rewrite <- (Z.opp_involutive (Z.of_nat u)) at 1. rewrite dft_at_Cconj by exact HM. reflexivity.
  - intros a Ha. rewrite dft_at_neg by assumption. rewrite <- dft_at_Cconj by exact HN. rewrite Z.opp_involutive. apply dft_at_ext. intros b Hb. unfold px. now apply (iat_map Cconj (RtoC 0) (RtoC 0) M).
Qed.

(** ** Filters *)
Lemma gabor_term_swap s t xi sl X Y : gabor_term s (PI / 2 - t) xi sl Y X = gabor_term s t xi sl X Y.
Proof.
  unfold gabor_term, curv, mul22. cbv zeta.
  replace (sin (PI / 2 - t)) with (cos t) by (symmetry; apply sin_shift). replace (cos (PI / 2 - t)) with (sin t) by (symmetry; apply cos_shift).
  f_equal; [do 2 f_equal; unfold Rdiv; ring|]. f_equal. ring.
Qed.
Lemma cos_minus_PI t : cos (t - PI) = (- cos t)%R.
Proof. rewrite cos_minus, cos_PI, sin_PI. ring. Qed.
Lemma sin_minus_PI t : sin (t - PI) = (- sin t)%R.
Proof. rewrite sin_minus, cos_PI, sin_PI. ring. Qed.
Lemma gabor_term_back s t xi sl X Y : gabor_term s (t - PI) xi sl X Y = Cconj (gabor_term s t xi sl X Y).
Proof.
  unfold gabor_term, curv, mul22. cbv zeta. rewrite !cos_minus_PI, !sin_minus_PI. rewrite Cconj_mult. f_equal.
  - unfold Cconj, RtoC. cbn [fst snd]. f_equal; [|ring]. f_equal. unfold Rdiv. ring.
  - unfold cis, Cconj. cbn [fst snd]. replace (X * xi * - cos t + Y * xi * - sin t)%R with (- (X * xi * cos t + Y * xi * sin t))%R by ring. now rewrite sin_neg, cos_neg.
Qed.

Lemma fold_swap (f : Z -> Z -> C) l l' :
  fold_right Cplus (RtoC 0) (map (fun a => fold_right Cplus (RtoC 0) (map (f a) l')) l) = fold_right Cplus (RtoC 0) (map (fun b => fold_right Cplus (RtoC 0) (map (fun a => f a b) l)) l').
Proof.
  induction l as [|a l IH]; cbn [map fold_right].
  - induction l' as [|b l' IH]; cbn [map fold_right]; [reflexivity|]. rewrite <- IH. ring.
  - rewrite IH. clear IH. induction l' as [|b l' IH]; cbn [map fold_right]; [ring|]. rewrite <- IH. ring.
Qed.
Lemma gabor_transposed M N s t xi sl : transposed M N (gabor_2d M N s t xi sl) (gabor_2d N M s (PI / 2 - t) xi sl).
Proof.
  apply transposed_img. intros u v Hu Hv. f_equal.
  rewrite (fold_swap (fun ex ey => gabor_term s (PI / 2 - t) xi sl (IZR (Z.of_nat v + ex * Z.of_nat N)) (IZR (Z.of_nat u + ey * Z.of_nat M)))).
  f_equal. apply map_ext. intros ex. f_equal. apply map_ext. intros ey. apply gabor_term_swap.
Qed.
Lemma Cconj_plus a b : Cconj (a + b)%C = (Cconj a + Cconj b)%C.
Proof. unfold Cconj, Cplus. cbn [fst snd]. f_equal. ring. Qed.
Lemma fold_conj {A} (f : A -> C) l : Cconj (fold_right Cplus (RtoC 0) (map f l)) = fold_right Cplus (RtoC 0) (map (fun a => Cconj (f a)) l).
Proof. induction l as [|a l IH]; cbn [map fold_right]; [unfold Cconj, RtoC; cbn; f_equal; ring|]. now rewrite Cconj_plus, IH. Qed.
Lemma Cconj_inv z : z <> RtoC 0 -> Cconj (/ z)%C = (/ Cconj z)%C.
Proof.
  intros Hz. destruct z as [a b]. unfold Cinv, Cconj. cbn [fst snd].
  assert (a ^ 2 + b ^ 2 <> 0)%R. { intros E. apply Hz. assert (a = 0 /\ b = 0)%R as [-> ->] by nra. reflexivity. }
  f_equal; field; replace (a * a + - b * - b)%R with (a ^ 2 + b ^ 2)%R by ring; nra.
Qed.
Lemma gabor_back M N s t xi sl : (2 * (31415 / 10000) * s * s / sl <> 0)%R -> gabor_2d M N s (t - PI) xi sl = map Cconj (gabor_2d M N s t xi sl).
Proof.
  intros Hne. unfold gabor_2d. rewrite img_map. apply img_ext. intros u v _ _. rewrite Cconj_div_R by exact Hne. f_equal. rewrite fold_conj. f_equal. apply map_ext. intros ex.
  rewrite fold_conj. f_equal. apply map_ext. intros ey. apply gabor_term_back.
Qed.
Lemma transposed_osum M N x y : transposed M N x y -> osum cops y = osum cops x.
Proof.
  intros (Hx & Hy & H). rewrite (osum_px M N x Hx), (osum_px N M y Hy), csum_swap. apply csum_ext. intros a Ha. apply csum_ext. intros b Hb. now apply H.
Qed.
Lemma osum_conj l : osum cops (map Cconj l) = Cconj (osum cops l).
Proof. unfold osum. cbn [o_add o_zero complex_ops]. rewrite <- (map_id l) at 2. now rewrite fold_conj. Qed.
Lemma px_combine M N k (x y : list C) u v : List.length x = M * N -> List.length y = M * N -> u < M -> v < N ->
  px N (map (fun ab => (fst ab - k * snd ab)%C) (combine x y)) u v = (px N x u v - k * px N y u v)%C.
Proof.
  intros Hx Hy Hu Hv. unfold px, iat. pose proof (pos_lt M N u v Hu Hv) as Hp.
  rewrite (nth_map_any _ _ _ _ (RtoC 0, RtoC 0)) by (rewrite combine_length; unfold C in *; lia).
  rewrite combine_nth by (unfold C in *; lia). reflexivity.
Qed.
Lemma morlet_transposed M N s t xi sl : transposed M N (morlet_2d M N s t xi sl) (morlet_2d N M s (PI / 2 - t) xi sl).
Proof.
  split; [apply morlet_length|]. split; [apply morlet_length|]. intros u v Hu Hv. unfold morlet_2d. cbv zeta.
  pose proof (gabor_transposed M N s t xi sl) as A. pose proof (gabor_transposed M N s t 0 sl) as B.
  rewrite (transposed_osum _ _ _ _ A), (transposed_osum _ _ _ _ B). destruct A as (A1 & A2 & A3), B as (B1 & B2 & B3).
  rewrite (px_combine M N) by assumption. rewrite (px_combine N M) by assumption. now rewrite A3, B3.
Qed.
Lemma morlet_back M N s t xi sl : 0 < M -> 0 < N -> (0 < s)%R -> (0 < sl)%R -> morlet_2d M N s (t - PI) xi sl = map Cconj (morlet_2d M N s t xi sl).
Proof.
  intros HM HN Hs Hsl. assert (Hd : (2 * (31415 / 10000) * s * s / sl <> 0)%R).
  { apply Rgt_not_eq. apply Rdiv_lt_0_compat; [|exact Hsl]. nra. }
  unfold morlet_2d. cbv zeta. rewrite !gabor_back by exact Hd. rewrite !osum_conj.
  destruct (gabor_sum_pos M N s t sl HM HN Hs Hsl) as [Er Hr].
  unfold Cdiv. rewrite <- Cconj_inv by (intros E; rewrite E in Hr; cbn in Hr; lra). rewrite <- Cconj_mult.
  set (k := (osum cops (gabor_2d M N s t xi sl) * / osum cops (gabor_2d M N s t 0 sl))%C).
  generalize (gabor_2d M N s t 0 sl) as y. generalize (gabor_2d M N s t xi sl) as x. clear. induction x as [|a x IH]; intros [|b y]; cbn [map combine]; try reflexivity.
  f_equal; [|apply IH]. cbn [fst snd]. unfold Cminus. rewrite Cconj_plus. f_equal. rewrite <- Cconj_mult. unfold Cconj, Copp. cbn [fst snd]. f_equal.
Qed.

Lemma gabor_term_round s t X Y : gabor_term s t 0 1 X Y = gabor_term s 0 0 1 X Y.
Proof.
  unfold gabor_term, curv, mul22. cbv zeta. rewrite cos_0, sin_0. f_equal; [|f_equal; ring]. do 2 f_equal. f_equal.
  assert (E : (cos t * cos t + sin t * sin t = 1)%R) by (pose proof (sin2_cos2 t) as E; unfold Rsqr in E; lra).
  unfold Rdiv. transitivity ((cos t * cos t + sin t * sin t) * / (2 * s * s) * (X * X + Y * Y))%R; [ring|]. rewrite E. ring.
Qed.
Lemma phi_transposed M N J : transposed M N (phi_hat M N J) (phi_hat N M J).
Proof.
  unfold phi_hat. apply transposed_fft. set (s := (8 / 10 * powerRZ 2 (J - 1))%R).
  replace (gabor_2d N M s 0 0 1) with (gabor_2d N M s (PI / 2 - 0) 0 1); [apply gabor_transposed|].
  unfold gabor_2d. apply img_ext. intros u v _ _. f_equal. f_equal. apply map_ext. intros a. f_equal. apply map_ext. intros b. apply gabor_term_round.
Qed.
Section Turn.
Variables (L h : Z).
Hypothesis (EL : L = (2 * h)%Z) (Hh : (1 <= h)%Z).
Lemma angle_eq t : (IZR (Z.quot (L - 2) 2 - t) * PI / IZR L)%R = (PI / 2 - IZR (t + 1) * PI / IZR L)%R.
Proof.
  replace (L - 2)%Z with ((h - 1) * 2)%Z by lia. rewrite Z.quot_mul by lia. rewrite EL, minus_IZR, minus_IZR, plus_IZR, mult_IZR.
  assert (1 <= IZR h)%R by (now apply IZR_le). field. lra.
Qed.
Lemma angle_turn t k : (IZR (Z.quot (L - 2) 2 - (h - 2 - t + k * L)) * PI / IZR L)%R = (PI / 2 - (IZR (Z.quot (L - 2) 2 - t) * PI / IZR L) - IZR k * PI)%R.
Proof.
  replace (L - 2)%Z with ((h - 1) * 2)%Z by lia. rewrite Z.quot_mul by lia.
  replace (h - 1 - (h - 2 - t + k * L))%Z with (1 + t - k * L)%Z by ring. rewrite EL, !minus_IZR, plus_IZR, !mult_IZR.
  assert (1 <= IZR h)%R by (now apply IZR_le). field. lra.
Qed.
Lemma psi_straight M N j t : transposed M N (psi_hat M N L j t) (psi_hat N M L j (h - 2 - t)).
Proof.
  unfold psi_hat. apply transposed_fft. replace (h - 2 - t)%Z with (h - 2 - t + 0 * L)%Z by ring. rewrite angle_turn. rewrite Rmult_0_l, Rminus_0_r. apply morlet_transposed.
Qed.
Lemma psi_back M N j t : 0 < M -> 0 < N -> (0 <= j)%Z ->
  exists z, transposed M N (psi_hat M N L j t) z /\ real_img N M z /\ opposite N M z (psi_hat N M L j (h - 2 - t + L)).
Proof.
  intros HM HN Hj. set (s := (8 / 10 * IZR (2 ^ j))%R). set (xi := (3 / 4 * PI / IZR (2 ^ j))%R). set (a := (IZR (Z.quot (L - 2) 2 - t) * PI / IZR L)%R).
  exists (real_fft2 N M (morlet_2d N M s (PI / 2 - a) xi (4 / IZR L))).
  split; [apply transposed_fft, morlet_transposed|]. split; [apply real_fft2_real, morlet_length|].
  unfold psi_hat. fold s xi. replace (h - 2 - t + L)%Z with (h - 2 - t + 1 * L)%Z by ring. rewrite angle_turn. fold a. rewrite Rmult_1_l.
  assert (HL : (1 <= IZR L)%R) by (apply IZR_le; lia). assert (0 < IZR (2 ^ j))%R by (apply IZR_lt, Z.pow_pos_nonneg; lia).
  rewrite morlet_back; try assumption; [|unfold s; lra|apply Rdiv_lt_0_compat; lra]. apply conj_fft; try assumption. apply morlet_length.
Qed.
End Turn.

(** ** Coefficients *)
(** The orientation that the transposition makes of orientation [t]. *)
Definition turned (L t : Z) : Z := ((L / 2 - 2 - t) mod L)%Z.
Section Coefs.
Variables (M N : nat) (J L : Z).
Hypothesis (HM : 0 < M) (HN : 0 < N) (HL : (0 < L)%Z) (EvL : (L mod 2 = 0)%Z) (DM : Nat.divide (p2 J) M) (DN : Nat.divide (p2 J) N).
Lemma half : (L = 2 * (L / 2))%Z /\ (1 <= L / 2)%Z.
Proof. pose proof (Z_div_mod_eq_full L 2). lia. Qed.
Lemma turned_straight t : (0 <= t <= L / 2 - 2)%Z -> turned L t = (L / 2 - 2 - t)%Z.
Proof. intros Ht. apply Z.mod_small. destruct half. lia. Qed.
Lemma turned_back t : (L / 2 - 2 < t < L)%Z -> turned L t = (L / 2 - 2 - t + L)%Z.
Proof.
  intros Ht. unfold turned. destruct half. symmetry. rewrite <- (Z_mod_plus_full _ 1 L). rewrite Z.mul_1_l. symmetry. apply Z.mod_small. lia.
Qed.
Lemma turned_range t : (0 <= turned L t < L)%Z.
Proof. apply Z.mod_pos_bound. exact HL. Qed.
Lemma modulus_real M' N' x w r : real_img (M' / r) (N' / r) (sampled_modulus2 M' N' x w r).
Proof. intros u v Hu Hv. unfold sampled_modulus2. rewrite px_img by assumption. reflexivity. Qed.
(** The filter of orientation [t] and the turned one have transposed responses up to a modulus. *)
Lemma psi_modulus x y j t r : (0 <= j)%Z -> (0 <= t < L)%Z -> transposed M N x y -> real_img N M y ->
  transposed (M / r) (N / r) (sampled_modulus2 M N x (psi_hat M N L j t) r) (sampled_modulus2 N M y (psi_hat N M L j (turned L t)) r).
Proof.
  intros Hj Ht Hx Hr. destruct half as [E1 E2]. destruct (Z_le_gt_dec t (L / 2 - 2)) as [Hc|Hc].
  - rewrite turned_straight by lia. apply transposed_modulus; try assumption. now apply psi_straight.
  - rewrite turned_back by lia. destruct (psi_back L (L / 2) E1 E2 M N j t HM HN Hj) as (z & Tz & Rz & Oz).
    rewrite (opposite_modulus N M y z _ r HN HM Hr Rz Oz). now apply transposed_modulus.
Qed.
Lemma transposed_real x y : transposed M N x y -> real_img M N x -> real_img N M y.
Proof. intros (_ & _ & H) R u v Hu Hv. rewrite H by assumption. now apply R. Qed.
Lemma P_pos k : 0 < P k.
Proof. apply Nat.neq_0_lt_0, Nat.pow_nonzero. lia. Qed.
Lemma P_mul a b : (0 <= a <= b)%Z -> P a * P (b - a) = P b.
Proof. intros H. unfold P. rewrite <- Nat.pow_add_r. f_equal. lia. Qed.
Lemma lev_pos K k : 0 < K -> (0 <= k <= J)%Z -> Nat.divide (p2 J) K -> 0 < K / P k.
Proof.
  intros HK Hk [c Hc]. apply Nat.div_str_pos. split; [apply P_pos|]. change (p2 J) with (P J) in Hc. rewrite <- (P_mul k J) in Hc by lia.
  pose proof (P_pos k). pose proof (P_pos (J - k)). destruct c; [lia|]. nia.
Qed.
Lemma div_levels2 K a b : (0 <= a <= b)%Z -> K / P a / P (b - a) = K / P b.
Proof. intros H. pose proof (P_pos a). pose proof (P_pos (b - a)). rewrite Nat.div_div by lia. now rewrite P_mul. Qed.
Lemma value2_transposed js ts x y : label2 J L js ts -> (forall j1 j2 t1 t2, js = [j1; j2] -> ts = [t1; t2] -> (j1 = 0 \/ t2 <= L / 2 - 2)%Z) ->
  transposed M N x y -> real_img M N x -> transposed (M / P J - 2) (N / P J - 2) (value2 M N J L js ts x) (value2 N M J L js (map (turned L) ts) y).
Proof.
  intros Hl He Hx Hr. pose proof (transposed_real x y Hx Hr) as Hry. destruct half as [E1 E2].
  destruct Hl as [[-> ->]|[(j & t & -> & -> & Hj & Ht)|(j1 & t1 & j2 & t2 & -> & -> & Hj & Hj2 & Ht1 & Ht2)]]; cbn [value2 map].
  - apply transposed_lowpass; try assumption. apply phi_transposed.
  - unfold S1_val. rewrite <- (div_levels2 M j J), <- (div_levels2 N j J) by lia. apply transposed_lowpass; try (apply lev_pos; (assumption || lia)).
    + unfold U1_val. apply psi_modulus; try assumption; lia.
    + apply transposed_restrict; [apply P_pos|]. apply phi_transposed.
  - unfold S2_val. rewrite <- (div_levels2 M j2 J), <- (div_levels2 N j2 J) by lia. apply transposed_lowpass; try (apply lev_pos; (assumption || lia)).
    + unfold U2_val. rewrite <- (div_levels2 M j1 j2), <- (div_levels2 N j1 j2) by lia.
      assert (TU : transposed (M / P j1) (N / P j1) (U1_val M N L j1 t1 x) (U1_val N M L j1 (turned L t1) y)) by (unfold U1_val; apply psi_modulus; try assumption; lia).
      destruct (He j1 j2 t1 t2 eq_refl eq_refl) as [-> | Hc].
      * change (P 0) with 1 in *. rewrite !Nat.div_1_r in *. rewrite !restrict2_1 by apply psi_hat_length. apply psi_modulus; try assumption; try lia.
        pose proof (modulus_real N M y (psi_hat N M L 0 (turned L t1)) 1) as R. rewrite !Nat.div_1_r in R. exact R.
      * apply transposed_modulus; try (apply lev_pos; (assumption || lia)); [exact TU|]. apply transposed_restrict; [apply P_pos|]. rewrite turned_straight by lia. now apply psi_straight.
    + apply transposed_restrict; [apply P_pos|]. apply phi_transposed.
Qed.
End Coefs.
