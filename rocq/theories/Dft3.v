(** The 3-D discrete Fourier transform and circular convolution of volumes. *)
From Coq Require Import Reals ZArith List Lia Lra Arith.
From Coquelicot Require Import Coquelicot.
From Verif Require Import Base NdArray NdProofs StackProofs Backend Rows1d ComplexOps Dft Conv1d Backend2d Images Dft2 Conv2d Backend3d.
Import ListNotations.
Local Open Scope C_scope.

(** ** Vocabulary *)
(** Entry (a, b, c) of a volume of size M x N x D. *)
Definition vox (N D : nat) (x : list C) (a b c : nat) : C := nth ((a * N + b) * D + c) x (RtoC 0).
Definition dft3_at (M N D : nat) (x : nat -> nat -> nat -> C) (u v w : Z) : C := dft_at M (fun a => dft2_at N D (x a) v w) u.
Definition idft3_at (M N D : nat) (x : nat -> nat -> nat -> C) (u v w : Z) : C := idft_at M (fun a => idft2_at N D (x a) v w) u.
Definition idft3 (M N D : nat) (x : list C) : list C :=
  vol M N D (fun a b c => idft3_at M N D (vox N D x) (Z.of_nat a) (Z.of_nat b) (Z.of_nat c)).
Definition csum3 (M N D : nat) (f : nat -> nat -> nat -> C) : C := csum M (fun a => csum N (fun b => csum D (fun c => f a b c))).
(** Circular convolution of two volumes. *)
Definition wrap (n : nat) (a : Z) : nat := Z.to_nat (a mod Z.of_nat n).
Definition conv3 (M N D : nat) (x h : list C) (u v w : Z) : C :=
  csum3 M N D (fun a b c => vox N D x a b c * vox N D h (wrap M (u - Z.of_nat a)) (wrap N (v - Z.of_nat b)) (wrap D (w - Z.of_nat c))).

(** ** Volumes *)
Section Vol.
Context {K : Type}.
Implicit Types f g : nat -> nat -> nat -> K.
Lemma vol_length M N D f : length (vol M N D f) = (M * (N * D))%nat.
Proof. apply img_length. Qed.
Lemma vol_ext M N D f g : (forall a b c, (a < M)%nat -> (b < N)%nat -> (c < D)%nat -> f a b c = g a b c) -> vol M N D f = vol M N D g.
Proof.
  intros H. apply img_ext. intros a r Ha Hr. destruct D as [|D']; [lia|]. apply H; [exact Ha| |apply Nat.mod_upper_bound; lia].
  apply Nat.div_lt_upper_bound; lia.
Qed.
Lemma nth_vol z M N D f a b c : (a < M)%nat -> (b < N)%nat -> (c < D)%nat -> nth ((a * N + b) * D + c) (vol M N D f) z = f a b c.
Proof.
  intros Ha Hb Hc. unfold vol. replace ((a * N + b) * D + c)%nat with (a * (N * D) + (b * D + c))%nat by ring.
  assert (Hr : (b * D + c < N * D)%nat) by nia. pose proof (iat_img z M (N * D) (fun a r => f a (r / D)%nat (r mod D)%nat) a (b * D + c) Ha Hr) as E.
  unfold iat in E. rewrite E. now rewrite pos_div, pos_mod.
Qed.
Lemma vol_nth z M N D (l : list K) : length l = (M * (N * D))%nat -> vol M N D (fun a b c => nth ((a * N + b) * D + c) l z) = l.
Proof.
  intros Hl. transitivity (img M (N * D) (iat z (N * D) l)); [|now apply img_iat]. apply img_ext. intros a r Ha Hr. unfold iat. f_equal.
  destruct D as [|D']; [lia|]. pose proof (Nat.div_mod r (S D')). nia.
Qed.
End Vol.
Lemma vol_map {A B} (g : A -> B) M N D (f : nat -> nat -> nat -> A) : map g (vol M N D f) = vol M N D (fun a b c => g (f a b c)).
Proof. unfold vol, img. now rewrite map_map. Qed.
Lemma vol_combine {A B} M N D (f : nat -> nat -> nat -> A) (g : nat -> nat -> nat -> B) :
  combine (vol M N D f) (vol M N D g) = vol M N D (fun a b c => (f a b c, g a b c)).
Proof.
  unfold vol, img. generalize (seq 0 (M * (N * D))). intros l. induction l as [|p l IH]; [reflexivity|]. cbn [map combine]. now rewrite IH.
Qed.
Lemma vox_vol M N D f a b c : (a < M)%nat -> (b < N)%nat -> (c < D)%nat -> vox N D (vol M N D f) a b c = f a b c.
Proof. intros. now apply nth_vol. Qed.
Lemma vol_vox M N D l : length l = (M * (N * D))%nat -> vol M N D (vox N D l) = l.
Proof. apply (vol_nth (RtoC 0)). Qed.
Lemma vox_px N D l a b c : vox N D l a b c = px (N * D) l a (b * D + c).
Proof. unfold vox, px, iat. f_equal. ring. Qed.

(** ** Transforms computed axis by axis *)
Lemma px_slices (f : list C -> list C) m n (l : list C) u v : (forall r, length r = n -> length (f r) = n) -> length l = (m * n)%nat -> (u < m)%nat -> (v < n)%nat ->
  px n (concat (map f (chunks m n l))) u v = at_ (f (nth u (chunks m n l) [])) v.
Proof.
  intros Hf Hl Hu Hv. destruct (chunks_ok m n l Hl) as (H1 & H2 & H3). unfold px, iat. rewrite nth_concat_const; [|apply Forall_map; eapply Forall_impl; [|exact H2]; intros r Hr; now apply Hf|exact Hv].
  unfold at_. f_equal. rewrite (nth_indep _ [] (f [])) by (rewrite map_length; lia). apply map_nth.
Qed.
Lemma sep3_length f M N D v : length (sep3 f M N D v) = (M * (N * D))%nat.
Proof. unfold sep3. rewrite transpose_block_length. lia. Qed.
Section Sep3.
Variables (f : list C -> list C) (G : nat -> (nat -> C) -> Z -> C).
Hypothesis Hf : forall r, length (f r) = length r.
Hypothesis HG : forall r k, (k < length r)%nat -> at_ (f r) k = G (length r) (at_ r) (Z.of_nat k).
Hypothesis Gext : forall n x y k, (forall i, (i < n)%nat -> x i = y i) -> G n x k = G n y k.
Lemma vox_sep3 M N D v a b c : length v = (M * (N * D))%nat -> (a < M)%nat -> (b < N)%nat -> (c < D)%nat ->
  vox N D (sep3 f M N D v) a b c = G M (fun a => G N (fun b => G D (fun c => vox N D v a b c) (Z.of_nat c)) (Z.of_nat b)) (Z.of_nat a).
Proof.
  intros Hl Ha Hb Hc. assert (Hr : (b * D + c < N * D)%nat) by nia. rewrite vox_px. unfold sep3. rewrite px_transpose by assumption.
  set (y := concat (map (sep2 cops f N D) (chunks M (N * D) v))).
  assert (Hs : forall r, length r = (N * D)%nat -> length (sep2 cops f N D r) = (N * D)%nat) by (intros r Hr'; apply (sep2_length cops); [exact Hf|exact Hr']).
  assert (Hy : length y = (M * (N * D))%nat).
  { unfold y. destruct (chunks_ok M (N * D) v Hl) as (H1 & H2 & _). rewrite (concat_len (N * D)), map_length, H1; [lia|].
    apply Forall_map. eapply Forall_impl; [|exact H2]. exact Hs. }
  assert (Ht : length (transpose_block cops M (N * D) y) = (N * D * M)%nat) by (rewrite transpose_block_length; lia).
  rewrite px_rows by assumption. rewrite HG by (rewrite row_length; assumption). rewrite row_length by assumption. apply Gext. intros a' Ha'.
  rewrite at_row by assumption. rewrite px_transpose by assumption. unfold y. rewrite px_slices by assumption.
  change (at_ (sep2 cops f N D (nth a' (chunks M (N * D) v) [])) (b * D + c)) with (px D (sep2 cops f N D (nth a' (chunks M (N * D) v) [])) b c).
  rewrite (px_sep2 f G) by first [assumption|now apply row_length]. apply Gext. intros b' Hb'. apply Gext. intros c' Hc'.
  change (px D (nth a' (chunks M (N * D) v) []) b' c') with (at_ (nth a' (chunks M (N * D) v) []) (b' * D + c')).
  rewrite at_row by (assumption || nia). symmetry. apply vox_px.
Qed.
End Sep3.
Lemma dft3_length M N D v : length (sep3 dft M N D v) = (M * (N * D))%nat.
Proof. apply sep3_length. Qed.
Lemma vox_dft3 M N D v a b c : length v = (M * (N * D))%nat -> (a < M)%nat -> (b < N)%nat -> (c < D)%nat ->
  vox N D (sep3 dft M N D v) a b c = dft3_at M N D (vox N D v) (Z.of_nat a) (Z.of_nat b) (Z.of_nat c).
Proof. intros. apply (vox_sep3 dft dft_at); try assumption; [apply dft_length|apply at_dft|intros; now apply dft_at_ext]. Qed.
Lemma sep3_idft M N D v : length v = (M * (N * D))%nat -> sep3 idft M N D v = idft3 M N D v.
Proof.
  intros Hl. rewrite <- (vol_vox M N D (sep3 idft M N D v)) by apply sep3_length. apply vol_ext. intros a b c Ha Hb Hc.
  apply (vox_sep3 idft idft_at); try assumption; [apply idft_length|apply at_idft|intros; now apply idft_at_ext].
Qed.

(** ** Algebra *)
Lemma csum3_ext M N D f g : (forall a b c, (a < M)%nat -> (b < N)%nat -> (c < D)%nat -> f a b c = g a b c) -> csum3 M N D f = csum3 M N D g.
Proof. intros H. apply csum_ext. intros a Ha. apply csum_ext. intros b Hb. apply csum_ext. intros c Hc. now apply H. Qed.
Lemma csum3_scal M N D k f : csum3 M N D (fun a b c => k * f a b c) = k * csum3 M N D f.
Proof.
  unfold csum3. rewrite <- csum_scal. apply csum_ext. intros a _. rewrite <- csum_scal. apply csum_ext. intros b _. apply csum_scal.
Qed.
Lemma idft3_at_ext M N D x y u v w : (forall a b c, (a < M)%nat -> (b < N)%nat -> (c < D)%nat -> x a b c = y a b c) -> idft3_at M N D x u v w = idft3_at M N D y u v w.
Proof. intros H. apply idft_at_ext. intros a Ha. apply idft2_at_ext. intros b c Hb Hc. now apply H. Qed.
Lemma wrap_lt n a : (0 < n)%nat -> (wrap n a < n)%nat.
Proof. intros Hn. unfold wrap. pose proof (Z.mod_pos_bound a (Z.of_nat n)). lia. Qed.
Lemma wrap_id n a : (0 < n)%nat -> (Z.of_nat (wrap n a) = a mod Z.of_nat n)%Z.
Proof. intros Hn. unfold wrap. pose proof (Z.mod_pos_bound a (Z.of_nat n)). rewrite Z2Nat.id; lia. Qed.
Lemma wrap_congr n a b : (a mod Z.of_nat n = b mod Z.of_nat n)%Z -> wrap n a = wrap n b.
Proof. intros H. unfold wrap. now rewrite H. Qed.
Section Size.
Variables (M N D : nat).
Hypothesis (HM : (0 < M)%nat) (HN : (0 < N)%nat) (HD : (0 < D)%nat).
Lemma vox_idft3_wrap x u v w : vox N D (idft3 M N D x) (wrap M u) (wrap N v) (wrap D w) = idft3_at M N D (vox N D x) u v w.
Proof.
  unfold idft3. rewrite vox_vol by now apply wrap_lt. rewrite !wrap_id by assumption. unfold idft3_at.
  rewrite (idft_at_congr M HM _ (u mod Z.of_nat M) u) by (apply Z.mod_mod; lia).
  apply idft_at_ext. intros a _. apply idft2_at_congr; try assumption; apply Z.mod_mod; lia.
Qed.
(** Inverse transform of a product of transforms. *)
Lemma idft3_product (x w : nat -> nat -> nat -> C) u v t :
  idft3_at M N D (fun a b c => dft3_at M N D x (Z.of_nat a) (Z.of_nat b) (Z.of_nat c) * w a b c) u v t =
  csum3 M N D (fun a b c => x a b c * idft3_at M N D w (u - Z.of_nat a) (v - Z.of_nat b) (t - Z.of_nat c)).
Proof.
  set (xh := fun a => img N D (fun b c => dft_at M (fun a' => x a' b c) (Z.of_nat a))).
  assert (E : forall a b c, (b < N)%nat -> (c < D)%nat ->
     dft3_at M N D x (Z.of_nat a) (Z.of_nat b) (Z.of_nat c) = dft2_at N D (px D (xh a)) (Z.of_nat b) (Z.of_nat c)).
  { intros a b c Hb Hc. unfold dft3_at.
    rewrite (dft2_at_ext N D (px D (xh a)) (fun b c => csum M (fun a' => root M (- (Z.of_nat a * Z.of_nat a')) * x a' b c))).
    - unfold dft2_at. rewrite (dft_at_ext N (fun b' => dft_at D (fun c' => csum M (fun a' => root M (- (Z.of_nat a * Z.of_nat a')) * x a' b' c')) (Z.of_nat c))
        (fun b' => csum M (fun a' => root M (- (Z.of_nat a * Z.of_nat a')) * dft_at D (x a' b') (Z.of_nat c)))).
      + rewrite (dft_at_linear N M (fun a' b' => dft_at D (x a' b') (Z.of_nat c)) (fun a' => root M (- (Z.of_nat a * Z.of_nat a')))).
        unfold dft_at at 1. apply csum_ext. intros a' _. rewrite Cmult_comm. reflexivity.
      + intros b' _. apply (dft_at_linear D M (fun a' c' => x a' b' c') (fun a' => root M (- (Z.of_nat a * Z.of_nat a')))).
    - intros b' c' Hb' Hc'. unfold xh. rewrite px_img by assumption. unfold dft_at. apply csum_ext. intros a' _. apply Cmult_comm. }
  unfold idft3_at at 1.
  rewrite (idft_at_ext M _ (fun a => csum N (fun b => 1 * csum D (fun c => 1 * (dft_at M (fun a' => x a' b c) (Z.of_nat a) * idft2_at N D (w a) (v - Z.of_nat b) (t - Z.of_nat c)))))).
  - rewrite (idft_at_linear M N (fun b a => csum D (fun c => 1 * (dft_at M (fun a' => x a' b c) (Z.of_nat a) * idft2_at N D (w a) (v - Z.of_nat b) (t - Z.of_nat c)))) (fun _ => 1)).
    unfold csum3. rewrite csum_swap. apply csum_ext. intros b _. rewrite Cmult_1_l.
    rewrite (idft_at_linear M D (fun c a => dft_at M (fun a' => x a' b c) (Z.of_nat a) * idft2_at N D (w a) (v - Z.of_nat b) (t - Z.of_nat c)) (fun _ => 1)).
    rewrite csum_swap. apply csum_ext. intros c _. rewrite Cmult_1_l.
    rewrite (convolution M HM (fun a => x a b c) (fun a => idft2_at N D (w a) (v - Z.of_nat b) (t - Z.of_nat c)) u). reflexivity.
  - intros a _. rewrite (idft2_at_ext N D _ (fun b c => dft2_at N D (px D (xh a)) (Z.of_nat b) (Z.of_nat c) * px D (img N D (w a)) b c)).
    + rewrite idft2_product by assumption. unfold conv2. apply csum_ext. intros b Hb. rewrite Cmult_1_l. apply csum_ext. intros c Hc. rewrite Cmult_1_l. f_equal.
      * unfold xh. now rewrite px_img.
      * rewrite px_idft2_mod by assumption. apply idft2_at_ext. intros b' c' Hb' Hc'. now rewrite px_img.
    + intros b c Hb Hc. rewrite E by assumption. now rewrite px_img.
Qed.
(** Filtering in the Fourier domain is circular convolution with the filter in space. *)
Lemma filter3_spec v w : length v = (M * (N * D))%nat -> length w = (M * (N * D))%nat ->
  sep3 idft M N D (mul_row cops w (sep3 dft M N D v)) = vol M N D (fun a b c => conv3 M N D v (idft3 M N D w) (Z.of_nat a) (Z.of_nat b) (Z.of_nat c)).
Proof.
  intros Hv Hw. rewrite sep3_idft by (rewrite mul_row_length; rewrite dft3_length; [reflexivity|exact Hw]).
  unfold idft3 at 1. apply vol_ext. intros a b c Ha Hb Hc.
  rewrite (idft3_at_ext M N D _ (fun a b c => dft3_at M N D (vox N D v) (Z.of_nat a) (Z.of_nat b) (Z.of_nat c) * vox N D w a b c)).
  - rewrite idft3_product. apply csum3_ext. intros a' b' c' _ _ _. f_equal. symmetry. apply vox_idft3_wrap.
  - intros a' b' c' Ha' Hb' Hc'. rewrite <- vox_dft3 by assumption. unfold vox. apply at_mul. now rewrite dft3_length.
Qed.
(** Circular translation. *)
Definition translate3 (d e g : Z) (x : list C) : list C :=
  vol M N D (fun a b c => vox N D x (wrap M (Z.of_nat a - d)) (wrap N (Z.of_nat b - e)) (wrap D (Z.of_nat c - g))).
Lemma csum_rot n (f : nat -> C) (d : Z) : (0 < n)%nat -> csum n (fun a => f (wrap n (Z.of_nat a - d))) = csum n f.
Proof.
  intros Hn. rewrite <- (csum_ext n (fun a => f (wrap n (Z.of_nat a))) f).
  - symmetry. rewrite <- (csum_shift n Hn (fun a => f (wrap n a)) (- d)).
    + apply csum_ext. intros a _. reflexivity.
    + intros a b H. now rewrite (wrap_congr n a b H).
  - intros i Hi. f_equal. unfold wrap. rewrite Z.mod_small by lia. apply Nat2Z.id.
Qed.
Lemma conv3_translate d e g x h u v w : conv3 M N D (translate3 d e g x) h u v w = conv3 M N D x h (u - d) (v - e) (w - g).
Proof.
  unfold conv3.
  set (F := fun a b c => vox N D x a b c * vox N D h (wrap M (u - d - Z.of_nat a)) (wrap N (v - e - Z.of_nat b)) (wrap D (w - g - Z.of_nat c))).
  rewrite (csum3_ext M N D _ (fun a b c => F (wrap M (Z.of_nat a - d)) (wrap N (Z.of_nat b - e)) (wrap D (Z.of_nat c - g)))).
  - unfold csum3. rewrite (csum_rot M (fun a => csum N (fun b => csum D (fun c => F a (wrap N (Z.of_nat b - e)) (wrap D (Z.of_nat c - g))))) d HM).
    apply csum_ext. intros a _. rewrite (csum_rot N (fun b => csum D (fun c => F a b (wrap D (Z.of_nat c - g)))) e HN).
    apply csum_ext. intros b _. apply (csum_rot D (fun c => F a b c) g HD).
  - intros a b c Ha Hb Hc. unfold F, translate3. rewrite vox_vol by assumption. f_equal. rewrite !wrap_id by assumption.
    f_equal; apply wrap_congr; rewrite Zminus_mod_idemp_r; f_equal; ring.
Qed.
Lemma conv3_congr x h u u' v v' w w' : (u mod Z.of_nat M = u' mod Z.of_nat M)%Z -> (v mod Z.of_nat N = v' mod Z.of_nat N)%Z -> (w mod Z.of_nat D = w' mod Z.of_nat D)%Z ->
  conv3 M N D x h u v w = conv3 M N D x h u' v' w'.
Proof.
  intros Hu Hv Hw. apply csum3_ext. intros a b c _ _ _. f_equal.
  f_equal; apply wrap_congr; rewrite Zminus_mod; rewrite ?Hu, ?Hv, ?Hw; now rewrite <- Zminus_mod.
Qed.
Lemma conv3_ext x x' h u v w : (forall a b c, (a < M)%nat -> (b < N)%nat -> (c < D)%nat -> vox N D x a b c = vox N D x' a b c) ->
  conv3 M N D x h u v w = conv3 M N D x' h u v w.
Proof. intros H. apply csum3_ext. intros. now rewrite H. Qed.
Lemma conv3_scal k x h u v w : length x = (M * (N * D))%nat -> conv3 M N D (map (Cmult k) x) h u v w = k * conv3 M N D x h u v w.
Proof.
  intros Hl. unfold conv3. rewrite <- csum3_scal. apply csum3_ext. intros a b c Ha Hb Hc. rewrite Cmult_assoc. f_equal.
  rewrite <- (vol_vox M N D x Hl) at 1. rewrite vol_map, vox_vol by assumption. reflexivity.
Qed.
(** Sum of the voxels. *)
Lemma osum_vol f : osum cops (vol M N D f) = csum3 M N D f.
Proof.
  rewrite osum_at, vol_length, csum_mul. unfold csum3. apply csum_ext. intros a Ha. rewrite csum_mul. apply csum_ext. intros b Hb. apply csum_ext. intros c Hc.
  unfold at_. replace (a * (N * D) + (b * D + c))%nat with ((a * N + b) * D + c)%nat by ring. now apply nth_vol.
Qed.
Lemma csum3_translate f d e g : csum3 M N D (fun a b c => f (wrap M (Z.of_nat a - d)) (wrap N (Z.of_nat b - e)) (wrap D (Z.of_nat c - g))) = csum3 M N D f.
Proof.
  unfold csum3. rewrite (csum_rot M (fun a => csum N (fun b => csum D (fun c => f a (wrap N (Z.of_nat b - e)) (wrap D (Z.of_nat c - g))))) d HM).
  apply csum_ext. intros a _. rewrite (csum_rot N (fun b => csum D (fun c => f a b (wrap D (Z.of_nat c - g)))) e HN).
  apply csum_ext. intros b _. apply (csum_rot D (fun c => f a b c) g HD).
Qed.
(** Response to a constant. *)
Lemma sum_idft3 w : csum3 M N D (vox N D (idft3 M N D w)) = vox N D w 0 0 0.
Proof.
  rewrite (csum3_ext M N D _ (fun a b c => idft3_at M N D (vox N D w) (Z.of_nat a) (Z.of_nat b) (Z.of_nat c))) by (intros; unfold idft3; now rewrite vox_vol).
  unfold csum3, idft3_at.
  rewrite (csum_ext M _ (fun a => idft_at M (fun a' => vox N D w a' 0 0) (Z.of_nat a))).
  - apply (csum_idft_at M (fun a' => vox N D w a' 0 0) HM).
  - intros a _. rewrite (csum_ext N _ (fun b => idft_at M (fun a' => idft_at N (fun b' => vox N D w a' b' 0) (Z.of_nat b)) (Z.of_nat a))).
    + rewrite <- (idft_at_ext M (fun a' => csum N (fun b => 1 * idft_at N (fun b' => vox N D w a' b' 0) (Z.of_nat b)))).
      * rewrite (idft_at_linear M N (fun b a' => idft_at N (fun b' => vox N D w a' b' 0) (Z.of_nat b)) (fun _ => 1)). apply csum_ext. intros. ring.
      * intros a' _. rewrite csum_scal, Cmult_1_l. apply (csum_idft_at N (fun b' => vox N D w a' b' 0) HN).
    + intros b _. rewrite <- (idft_at_ext M (fun a' => csum D (fun c => 1 * idft2_at N D (vox N D w a') (Z.of_nat b) (Z.of_nat c)))).
      * rewrite (idft_at_linear M D (fun c a' => idft2_at N D (vox N D w a') (Z.of_nat b) (Z.of_nat c)) (fun _ => 1)). apply csum_ext. intros. ring.
      * intros a' _. rewrite csum_scal, Cmult_1_l. unfold idft2_at.
        rewrite <- (idft_at_ext N (fun b' => csum D (fun c => 1 * idft_at D (vox N D w a' b') (Z.of_nat c)))).
        -- rewrite (idft_at_linear N D (fun c b' => idft_at D (vox N D w a' b') (Z.of_nat c)) (fun _ => 1)). apply csum_ext. intros. rewrite Cmult_1_l. reflexivity.
        -- intros b' _. rewrite csum_scal, Cmult_1_l. apply (csum_idft_at D (vox N D w a' b') HD).
Qed.
Lemma csum_reflect3 n (g : nat -> C) (d : Z) : (0 < n)%nat -> csum n (fun a => g (wrap n (d - Z.of_nat a))) = csum n g.
Proof. intros Hn. exact (csum_reflect_Z n g d Hn). Qed.
Lemma conv3_const k w u v t : conv3 M N D (vol M N D (fun _ _ _ => k)) (idft3 M N D w) u v t = k * vox N D w 0 0 0.
Proof.
  rewrite <- sum_idft3. unfold conv3. rewrite (csum3_ext M N D _ (fun a b c => k * vox N D (idft3 M N D w) (wrap M (u - Z.of_nat a)) (wrap N (v - Z.of_nat b)) (wrap D (t - Z.of_nat c))))
    by (intros; now rewrite vox_vol). rewrite csum3_scal. f_equal. unfold csum3.
  rewrite (csum_reflect3 M (fun a => csum N (fun b => csum D (fun c => vox N D (idft3 M N D w) a (wrap N (v - Z.of_nat b)) (wrap D (t - Z.of_nat c))))) u HM).
  apply csum_ext. intros a _. rewrite (csum_reflect3 N (fun b => csum D (fun c => vox N D (idft3 M N D w) a b (wrap D (t - Z.of_nat c)))) v HN).
  apply csum_ext. intros b _. apply (csum_reflect3 D (fun c => vox N D (idft3 M N D w) a b c) t HD).
Qed.
End Size.
