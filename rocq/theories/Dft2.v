(** The 2-D discrete Fourier transform, circular convolution of images, filtering and subsampling. *)
From Coq Require Import Reals ZArith List Lia Lra Arith.
From Coquelicot Require Import Coquelicot.
From Verif Require Import Base NdArray NdProofs Backend Rows1d ComplexOps Dft Conv1d Backend2d Images Core2d Rows2d Construct1d.
Import ListNotations.
Local Open Scope C_scope.
Notation cops := complex_ops.

(** ** Vocabulary *)
(** Entry (u, v) of an image with N columns. *)
Definition px (N : nat) (x : list C) (u v : nat) : C := iat (RtoC 0) N x u v.
(** The 2-D transforms, one axis after the other, at any pair of integers. *)
Definition dft2_at (M N : nat) (x : nat -> nat -> C) (u v : Z) : C := dft_at M (fun a => dft_at N (fun b => x a b) v) u.
Definition idft2_at (M N : nat) (x : nat -> nat -> C) (u v : Z) : C := idft_at M (fun a => idft_at N (fun b => x a b) v) u.
Definition dft2 (M N : nat) (x : list C) : list C := img M N (fun u v => dft2_at M N (px N x) (Z.of_nat u) (Z.of_nat v)).
Definition idft2 (M N : nat) (x : list C) : list C := img M N (fun u v => idft2_at M N (px N x) (Z.of_nat u) (Z.of_nat v)).
(** Circular convolution of two images. *)
Definition conv2 (M N : nat) (x h : list C) (u v : Z) : C :=
  csum M (fun a => csum N (fun b => px N x a b * px N h (Z.to_nat ((u - Z.of_nat a) mod Z.of_nat M)) (Z.to_nat ((v - Z.of_nat b) mod Z.of_nat N)))).

(** ** Transforms computed row by row, then column by column *)
Lemma px_transpose a b l i j : (i < a)%nat -> (j < b)%nat -> px a (transpose_block cops a b l) j i = px b l i j.
Proof.
  intros Hi Hj. unfold px, iat, transpose_block. rewrite nth_concat_const; [|apply Forall_map, Forall_forall; intros; now rewrite map_length, seq_length|exact Hi].
  rewrite (nth_indep _ [] (map (fun i => nth (i * b + 0) l (RtoC 0)) (seq 0 a))) by (rewrite map_length, seq_length; exact Hj).
  rewrite (map_nth (fun j => map (fun i => nth (i * b + j) l (RtoC 0)) (seq 0 a)) _ 0%nat), seq_nth by exact Hj. cbn [plus].
  exact (at_map_seq (fun i => nth (i * b + j) l (RtoC 0)) a i Hi).
Qed.
Lemma at_row m n (l : list C) u v : length l = (m * n)%nat -> (u < m)%nat -> (v < n)%nat -> at_ (nth u (chunks m n l) []) v = px n l u v.
Proof.
  intros Hl Hu Hv. destruct (chunks_ok m n l Hl) as (H1 & H2 & H3). unfold at_, px, iat. rewrite <- H3 at 2. symmetry. now apply nth_concat_const.
Qed.
Lemma px_rows (f : list C -> list C) m n (l : list C) u v : (forall r, length (f r) = length r) -> length l = (m * n)%nat -> (u < m)%nat -> (v < n)%nat ->
  px n (concat (map f (chunks m n l))) u v = at_ (f (nth u (chunks m n l) [])) v.
Proof.
  intros Hf Hl Hu Hv. destruct (chunks_ok m n l Hl) as (H1 & H2 & H3). unfold px, iat. rewrite nth_concat_const; [|apply Forall_map; eapply Forall_impl; [|exact H2]; intros r Hr; now rewrite Hf|exact Hv].
  unfold at_. f_equal. rewrite (nth_indep _ [] (f [])) by (rewrite map_length; lia). apply map_nth.
Qed.
Lemma row_length m n (l : list C) u : length l = (m * n)%nat -> (u < m)%nat -> length (nth u (chunks m n l) []) = n.
Proof. intros Hl Hu. destruct (chunks_ok m n l Hl) as (H1 & H2 & H3). rewrite Forall_forall in H2. apply H2, nth_In. lia. Qed.
Lemma px_sep2 (f : list C -> list C) (G : nat -> (nat -> C) -> Z -> C) M N im u v :
  (forall r, length (f r) = length r) -> (forall r k, (k < length r)%nat -> at_ (f r) k = G (length r) (at_ r) (Z.of_nat k)) ->
  (forall n x y k, (forall i, (i < n)%nat -> x i = y i) -> G n x k = G n y k) ->
  length im = (M * N)%nat -> (u < M)%nat -> (v < N)%nat ->
  px N (sep2 cops f M N im) u v = G M (fun a => G N (fun b => px N im a b) (Z.of_nat v)) (Z.of_nat u).
Proof.
  intros Hf HG Gext Hl Hu Hv. unfold sep2. rewrite px_transpose by assumption.
  set (y := concat (map f (chunks M N im))). assert (Hy : length y = (M * N)%nat) by (apply (rows_length f); assumption).
  assert (Ht : length (transpose_block cops M N y) = (N * M)%nat) by (rewrite transpose_block_length; lia).
  rewrite px_rows by assumption. rewrite HG by (rewrite row_length; assumption). rewrite row_length by assumption. apply Gext. intros a Ha.
  rewrite at_row by assumption. rewrite px_transpose by assumption. unfold y. rewrite px_rows by assumption.
  rewrite HG by (rewrite row_length; assumption). rewrite row_length by assumption. apply Gext. intros b Hb. now apply at_row.
Qed.
Lemma px_dft2 M N im u v : length im = (M * N)%nat -> (u < M)%nat -> (v < N)%nat -> px N (sep2 cops dft M N im) u v = dft2_at M N (px N im) (Z.of_nat u) (Z.of_nat v).
Proof. intros. apply px_sep2; try assumption; [apply dft_length|apply at_dft|intros; now apply dft_at_ext]. Qed.
Lemma px_idft2 M N im u v : length im = (M * N)%nat -> (u < M)%nat -> (v < N)%nat -> px N (sep2 cops idft M N im) u v = idft2_at M N (px N im) (Z.of_nat u) (Z.of_nat v).
Proof. intros. apply px_sep2; try assumption; [apply idft_length|apply at_idft|intros; now apply idft_at_ext]. Qed.
Lemma sep2_dft M N im : length im = (M * N)%nat -> sep2 cops dft M N im = dft2 M N im.
Proof.
  intros Hl. apply (image_ext (RtoC 0) M N); [apply (sep2_length cops); [apply dft_length|exact Hl]|apply img_length|].
  intros u v Hu Hv. unfold dft2. rewrite iat_img by assumption. now apply px_dft2.
Qed.
Lemma sep2_idft M N im : length im = (M * N)%nat -> sep2 cops idft M N im = idft2 M N im.
Proof.
  intros Hl. apply (image_ext (RtoC 0) M N); [apply (sep2_length cops); [apply idft_length|exact Hl]|apply img_length|].
  intros u v Hu Hv. unfold idft2. rewrite iat_img by assumption. now apply px_idft2.
Qed.
Lemma px_img M N f u v : (u < M)%nat -> (v < N)%nat -> px N (img M N f) u v = f u v.
Proof. intros. now apply iat_img. Qed.

(** ** Algebra *)
Lemma dft2_at_ext M N x y u v : (forall a b, (a < M)%nat -> (b < N)%nat -> x a b = y a b) -> dft2_at M N x u v = dft2_at M N y u v.
Proof. intros H. apply dft_at_ext. intros a Ha. apply dft_at_ext. intros b Hb. now apply H. Qed.
Lemma idft2_at_ext M N x y u v : (forall a b, (a < M)%nat -> (b < N)%nat -> x a b = y a b) -> idft2_at M N x u v = idft2_at M N y u v.
Proof. intros H. apply idft_at_ext. intros a Ha. apply idft_at_ext. intros b Hb. now apply H. Qed.
Lemma dft_at_linear N n (f : nat -> nat -> C) (c : nat -> C) v : dft_at N (fun b => csum n (fun a => c a * f a b)) v = csum n (fun a => c a * dft_at N (f a) v).
Proof.
  unfold dft_at. rewrite (csum_ext N _ (fun b => csum n (fun a => c a * (f a b * root N (- (v * Z.of_nat b)))))).
  - rewrite csum_swap. apply csum_ext. intros a _. now rewrite csum_scal.
  - intros b _. rewrite <- csum_scal_r. apply csum_ext. intros a _. ring.
Qed.
Lemma idft_at_linear N n (f : nat -> nat -> C) (c : nat -> C) v : idft_at N (fun b => csum n (fun a => c a * f a b)) v = csum n (fun a => c a * idft_at N (f a) v).
Proof.
  unfold idft_at. rewrite (csum_ext N _ (fun b => csum n (fun a => c a * (f a b * root N (Z.of_nat b * v))))).
  - rewrite csum_swap. unfold Cdiv. rewrite <- csum_scal_r. apply csum_ext. intros a _. rewrite csum_scal. ring.
  - intros b _. rewrite <- csum_scal_r. apply csum_ext. intros a _. ring.
Qed.
Lemma idft2_at_congr M N x u u' v v' : (0 < M)%nat -> (0 < N)%nat -> (u mod Z.of_nat M = u' mod Z.of_nat M)%Z -> (v mod Z.of_nat N = v' mod Z.of_nat N)%Z ->
  idft2_at M N x u v = idft2_at M N x u' v'.
Proof.
  intros HM HN Hu Hv. unfold idft2_at. rewrite (idft_at_congr M HM _ u u' Hu). apply idft_at_ext. intros a _. now apply idft_at_congr.
Qed.
Lemma px_idft2_mod M N w u v : (0 < M)%nat -> (0 < N)%nat ->
  px N (idft2 M N w) (Z.to_nat (u mod Z.of_nat M)) (Z.to_nat (v mod Z.of_nat N)) = idft2_at M N (px N w) u v.
Proof.
  intros HM HN. pose proof (Z.mod_pos_bound u (Z.of_nat M)). pose proof (Z.mod_pos_bound v (Z.of_nat N)).
  unfold idft2. rewrite px_img by lia. rewrite !Z2Nat.id by lia. apply idft2_at_congr; try assumption; now rewrite Z.mod_mod by lia.
Qed.
(** Inverse transform of a product of transforms. *)
Lemma idft2_product M N x w u v : (0 < M)%nat -> (0 < N)%nat ->
  idft2_at M N (fun a b => dft2_at M N (px N x) (Z.of_nat a) (Z.of_nat b) * px N w a b) u v = conv2 M N x (idft2 M N w) u v.
Proof.
  intros HM HN. unfold idft2_at at 1.
  (* along the rows of the spectrum *)
  rewrite (idft_at_ext M _ (fun a => csum N (fun d => dft_at M (fun c => px N x c d) (Z.of_nat a) * idft_at N (px N w a) (v - Z.of_nat d)))).
  2:{ intros a Ha. rewrite <- (convolution N HN (fun d => dft_at M (fun c => px N x c d) (Z.of_nat a)) (px N w a) v). apply idft_at_ext. intros b Hb. f_equal.
      unfold dft2_at, dft_at. rewrite (csum_ext M _ (fun c => csum N (fun d => px N x c d * root M (- (Z.of_nat a * Z.of_nat c)) * root N (- (Z.of_nat b * Z.of_nat d))))).
      - rewrite csum_swap. apply csum_ext. intros d _. now rewrite csum_scal_r.
      - intros c _. rewrite <- csum_scal_r. apply csum_ext. intros d _. ring. }
  rewrite (idft_at_ext M _ (fun a => csum N (fun d => 1 * (dft_at M (fun c => px N x c d) (Z.of_nat a) * idft_at N (px N w a) (v - Z.of_nat d))))).
  2:{ intros a _. apply csum_ext. intros. ring. }
  rewrite (idft_at_linear M N (fun d a => dft_at M (fun c => px N x c d) (Z.of_nat a) * idft_at N (px N w a) (v - Z.of_nat d)) (fun _ => 1)).
  unfold conv2. rewrite csum_swap. apply csum_ext. intros d _. rewrite Cmult_1_l.
  rewrite (convolution M HM (fun c => px N x c d) (fun a => idft_at N (px N w a) (v - Z.of_nat d)) u).
  apply csum_ext. intros c _. f_equal. now rewrite px_idft2_mod.
Qed.
(** Inverse transform of the folded spectrum. *)
Lemma subsample_idft2 k m n X u v : (0 < k)%nat -> (0 < m)%nat -> (0 < n)%nat ->
  idft2_at m n (fun a b => csum k (fun i => csum k (fun j => X (i * m + a)%nat (j * n + b)%nat)) / RtoC (INR (k * k))) u v =
  idft2_at (k * m) (k * n) X (Z.of_nat k * u) (Z.of_nat k * v).
Proof.
  intros Hk Hm Hn. unfold idft2_at. rewrite <- (subsample_idft k m) by assumption. apply idft_at_ext. intros a _.
  pose proof (INR_N_C k Hk) as Hc.
  rewrite (idft_at_ext n _ (fun b => csum k (fun i => / RtoC (INR k) * (csum k (fun j => X (i * m + a)%nat (j * n + b)%nat) / RtoC (INR k))))).
  - rewrite (idft_at_linear n k (fun i b => csum k (fun j => X (i * m + a)%nat (j * n + b)%nat) / RtoC (INR k)) (fun _ => / RtoC (INR k))).
    rewrite csum_scal. unfold Cdiv at 2. rewrite Cmult_comm. f_equal. apply csum_ext. intros i _. now rewrite (subsample_idft k n) by assumption.
  - intros b _. rewrite csum_scal. unfold Cdiv. rewrite csum_scal_r, mult_INR, RtoC_mult. field. exact Hc.
Qed.
Lemma px_fold M N k im u v : (0 < k)%nat -> Nat.divide k M -> Nat.divide k N -> (u < M / k)%nat -> (v < N / k)%nat ->
  px (N / k) (fold_img cops M N k im) u v = csum k (fun i => csum k (fun j => px N im (i * (M / k) + u) (j * (N / k) + v))) / RtoC (INR (k * k)).
Proof.
  intros Hk HdM HdN Hu Hv. unfold fold_img. rewrite px_img by assumption. cbn [o_divn complex_ops]. f_equal. rewrite osum_csum. apply csum_ext. intros i _. now rewrite osum_csum.
Qed.
Lemma px_mul N w x u v : length w = length x -> px N (mul_row cops w x) u v = px N x u v * px N w u v.
Proof. intros H. unfold px, iat. exact (at_mul w x (u * N + v) H). Qed.

(** ** Filtering and subsampling an image *)
Section Filt.
Variables (f : Core2d.filter2 (nd C)) (l k : Z) (M N : nat) (im : list C).
Hypothesis (HM : (0 < M)%nat) (HN : (0 < N)%nat) (Hk : (0 <= k)%Z) (Hf : level2_ok f l M N) (HdM : Nat.divide (p2 k) M) (HdN : Nat.divide (p2 k) N).
Hypothesis (Him : length im = (M * N)%nat).
Lemma lev2_length : length (lev2 f l) = (M * N)%nat.
Proof. destruct Hf as (w & Ew & _ & _ & Hw). unfold lev2. now rewrite Ew. Qed.
Lemma filt_spec u v : (u < M / p2 k)%nat -> (v < N / p2 k)%nat ->
  px (N / p2 k) (sep2 cops idft (M / p2 k) (N / p2 k) (filt_img cops f l k M N im)) u v =
  conv2 M N im (idft2 M N (lev2 f l)) (Z.of_nat (p2 k * u)) (Z.of_nat (p2 k * v)).
Proof.
  intros Hu Hv. rewrite px_idft2; [|now apply (filt_img_length cops complex_ops_ok)|exact Hu|exact Hv].
  assert (HL : length (sep2 cops dft M N im) = (M * N)%nat) by (apply (sep2_length cops); [apply dft_length|exact Him]).
  assert (E : forall a b, (a < M)%nat -> (b < N)%nat -> px N (mul_row cops (lev2 f l) (sep2 cops dft M N im)) a b =
     dft2_at M N (px N im) (Z.of_nat a) (Z.of_nat b) * px N (lev2 f l) a b).
  { intros a b Ha Hb. rewrite px_mul by (rewrite HL; apply lev2_length). now rewrite px_dft2. }
  unfold filt_img. cbn [o_fft complex_ops]. destruct HdM as [m Em]. destruct HdN as [n En]. pose proof (p2_pos k) as Hp.
  assert (Dm : (M / p2 k = m)%nat) by (rewrite Em; apply Nat.div_mul; lia). assert (Dn : (N / p2 k = n)%nat) by (rewrite En; apply Nat.div_mul; lia).
  destruct (Z.ltb_spec 0 k) as [Hk0|Hk0].
  - rewrite (idft2_at_ext _ _ _ (fun a b => csum (p2 k) (fun i => csum (p2 k) (fun j =>
        (fun a b => dft2_at M N (px N im) (Z.of_nat a) (Z.of_nat b) * px N (lev2 f l) a b) (i * (M / p2 k) + a)%nat (j * (N / p2 k) + b)%nat)) / RtoC (INR (p2 k * p2 k)))).
    + rewrite (subsample_idft2 (p2 k) (M / p2 k) (N / p2 k) (fun a b => dft2_at M N (px N im) (Z.of_nat a) (Z.of_nat b) * px N (lev2 f l) a b)) by (rewrite ?Dm, ?Dn; nia). rewrite Dm, Dn. replace (p2 k * m)%nat with M by lia. replace (p2 k * n)%nat with N by lia.
      rewrite idft2_product by assumption. now rewrite !Nat2Z.inj_mul.
    + intros a b Ha Hb. rewrite px_fold by assumption. f_equal. apply csum_ext. intros i Hi. apply csum_ext. intros j Hj.
      apply E; rewrite ?Dm, ?Dn in *; nia.
  - replace k with 0%Z in * by lia. rewrite !div_p2_0 in *. rewrite (idft2_at_ext M N _ _ _ _ E). rewrite idft2_product by assumption. rewrite p2_0, !Nat.mul_1_l. reflexivity.
Qed.
Definition sampled_modulus2 (x w : list C) (r : nat) : list C :=
  img (M / r) (N / r) (fun u v => RtoC (Cmod (conv2 M N x (idft2 M N w) (Z.of_nat (r * u)) (Z.of_nat (r * v))))).
(** One sample is dropped on each side. *)
Definition sampled_lowpass2 (x w : list C) (r : nat) : list C :=
  img (M / r - 2) (N / r - 2) (fun u v => RtoC (Re (conv2 M N x (idft2 M N w) (Z.of_nat (r * (u + 1))) (Z.of_nat (r * (v + 1)))))).
Lemma env_spec : env_img cops f l k M N im = sampled_modulus2 im (lev2 f l) (p2 k).
Proof.
  assert (HL : length (sep2 cops idft (M / p2 k) (N / p2 k) (filt_img cops f l k M N im)) = (M / p2 k * (N / p2 k))%nat).
  { apply (sep2_length cops); [apply idft_length|now apply (filt_img_length cops complex_ops_ok)]. }
  apply (image_ext (RtoC 0) (M / p2 k) (N / p2 k)); [now apply (env_img_length cops complex_ops_ok)|apply img_length|].
  intros u v Hu Hv. unfold sampled_modulus2. rewrite iat_img by assumption. unfold env_img. cbn [o_ifft o_abs complex_ops].
  rewrite (iat_map (fun z => RtoC (Cmod z)) (RtoC 0) (RtoC 0) (M / p2 k)) by assumption. do 2 f_equal. now apply filt_spec.
Qed.
Lemma low_spec : low_img cops f l k M N im = sampled_lowpass2 im (lev2 f l) (p2 k).
Proof.
  assert (HL : length (sep2 cops idft (M / p2 k) (N / p2 k) (filt_img cops f l k M N im)) = (M / p2 k * (N / p2 k))%nat).
  { apply (sep2_length cops); [apply idft_length|now apply (filt_img_length cops complex_ops_ok)]. }
  apply (image_ext (RtoC 0) (M / p2 k - 2) (N / p2 k - 2)); [apply low_img_length|apply img_length|].
  intros u v Hu Hv. unfold sampled_lowpass2. rewrite iat_img by assumption. unfold low_img, unpad_img. rewrite iat_img by assumption.
  cbn [o_ifft o_re complex_ops o_zero]. rewrite (iat_map (fun z => RtoC (Re z)) (RtoC 0) (RtoC 0) (M / p2 k)) by (assumption || lia). do 2 f_equal.
  apply filt_spec; lia.
Qed.
End Filt.
