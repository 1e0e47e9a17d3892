(** Exchanging two axes of a volume: convolutions, sums over the components of a solid harmonic, coefficients. *)
From Coq Require Import String Reals ZArith List Bool Arith Lia Lra.
From Coquelicot Require Import Complex.
From Verif Require Import Base BaseProofs NdArray NdProofs StackProofs Backend Backend2d Images ComplexOps Dft Conv1d Dft2 Mats
  Backend3d Core3d FilterBank3d Frontend3d Dft3 Rows3d Eval3d Path3d PropScat3d PropValues3d Stability1d Transpose2d.
Import ListNotations.
Local Open Scope C_scope.

(** ** Sums *)
Lemma csum_csum3 n M N D f : csum n (fun i => csum3 M N D (f i)) = csum3 M N D (fun a b c => csum n (fun i => f i a b c)).
Proof.
  unfold csum3. rewrite csum_swap. apply csum_ext. intros a _. rewrite csum_swap. apply csum_ext. intros b _. apply csum_swap.
Qed.
Lemma csum3_csum3 M N D f : csum3 M N D (fun a b c => csum3 M N D (f a b c)) = csum3 M N D (fun x y z => csum3 M N D (fun a b c => f a b c x y z)).
Proof.
  unfold csum3 at 1. rewrite (csum_ext M _ (fun a => csum3 M N D (fun x y z => csum N (fun b => csum D (fun c => f a b c x y z))))).
  - apply csum_csum3.
  - intros a _. rewrite (csum_ext N _ (fun b => csum3 M N D (fun x y z => csum D (fun c => f a b c x y z)))) by (intros b _; apply csum_csum3). apply csum_csum3.
Qed.
Lemma csum3_scal_r M N D f k : csum3 M N D (fun a b c => f a b c * k) = csum3 M N D f * k.
Proof. rewrite Cmult_comm, <- csum3_scal. apply csum3_ext. intros. apply Cmult_comm. Qed.
Lemma csum3_conj M N D f : Cconj (csum3 M N D f) = csum3 M N D (fun a b c => Cconj (f a b c)).
Proof. unfold csum3. rewrite csum_conj. apply csum_ext. intros a _. rewrite csum_conj. apply csum_ext. intros b _. apply csum_conj. Qed.
Lemma csum3_product M N D f g : csum3 M N D f * Cconj (csum3 M N D g) = csum3 M N D (fun a b c => csum3 M N D (fun x y z => f a b c * Cconj (g x y z))).
Proof. rewrite <- csum3_scal_r. apply csum3_ext. intros a b c _ _ _. rewrite csum3_conj. symmetry. apply csum3_scal. Qed.

(** ** Convolution by a filter given in the Fourier domain *)
(** exp(2 i pi (ka d / M + kb e / N + kc g / D)) / (M N D). *)
Definition wave3 (M N D ka kb kc : nat) (d e g : Z) : C :=
  root M (Z.of_nat ka * d) / RtoC (INR M) * (root N (Z.of_nat kb * e) / RtoC (INR N)) * (root D (Z.of_nat kc * g) / RtoC (INR D)).
Lemma idft3_at_sum M N D w d e g : idft3_at M N D w d e g = csum3 M N D (fun ka kb kc => w ka kb kc * wave3 M N D ka kb kc d e g).
Proof.
  unfold idft3_at, idft2_at. rewrite idft_at_sum. unfold csum3. apply csum_ext. intros ka _. rewrite idft_at_sum, <- csum_scal. apply csum_ext. intros kb _.
  rewrite idft_at_sum, <- !csum_scal. apply csum_ext. intros kc _. unfold wave3. ring.
Qed.
(** The part of the convolution that comes from frequency (ka, kb, kc). *)
Definition part3 (M N D : nat) (v : list C) (u1 u2 u3 : Z) (ka kb kc : nat) : C :=
  csum3 M N D (fun a b c => vox N D v a b c * wave3 M N D ka kb kc (u1 - Z.of_nat a) (u2 - Z.of_nat b) (u3 - Z.of_nat c)).
Lemma conv3_parts M N D v w u1 u2 u3 : (0 < M)%nat -> (0 < N)%nat -> (0 < D)%nat ->
  conv3 M N D v (idft3 M N D w) u1 u2 u3 = csum3 M N D (fun ka kb kc => vox N D w ka kb kc * part3 M N D v u1 u2 u3 ka kb kc).
Proof.
  intros HM HN HD. unfold conv3.
  rewrite (csum3_ext M N D _ (fun a b c => csum3 M N D (fun ka kb kc => vox N D w ka kb kc * (vox N D v a b c * wave3 M N D ka kb kc (u1 - Z.of_nat a) (u2 - Z.of_nat b) (u3 - Z.of_nat c))))).
  - rewrite csum3_csum3. apply csum3_ext. intros ka kb kc _ _ _. apply csum3_scal.
  - intros a b c _ _ _. rewrite vox_idft3_wrap by assumption. rewrite idft3_at_sum, <- csum3_scal. apply csum3_ext. intros. ring.
Qed.
Lemma square_Cmod z : RtoC (pow (Cmod z) 2) = z * Cconj z.
Proof. destruct z as [x y]. unfold Cmod. rewrite pow2_sqrt by (cbn; nra). unfold RtoC, Cconj, Cmult. cbn [fst snd]. f_equal; ring. Qed.
Lemma sum_of_csum {A} (f : A -> R) (l : list A) d : RtoC (sum_of (map f l)) = csum (length l) (fun i => RtoC (f (nth i l d))).
Proof.
  induction l as [|a l IH]; [reflexivity|]. cbn [map length]. rewrite csum_first. unfold sum_of in *. cbn [fold_right]. rewrite RtoC_plus, IH. reflexivity.
Qed.
(** The sum of the squares depends on the filters through the products of their values at two frequencies. *)
Definition kernel3 (N D : nat) (ws : list (list C)) (a b c x y z : nat) : C :=
  csum (length ws) (fun i => vox N D (nth i ws []) a b c * Cconj (vox N D (nth i ws []) x y z)).
Lemma squares_kernel M N D ws v u1 u2 u3 : (0 < M)%nat -> (0 < N)%nat -> (0 < D)%nat ->
  RtoC (sum_of (map (fun w => pow (Cmod (conv3 M N D v (idft3 M N D w) u1 u2 u3)) 2) ws)) =
  csum3 M N D (fun a b c => csum3 M N D (fun x y z => kernel3 N D ws a b c x y z * (part3 M N D v u1 u2 u3 a b c * Cconj (part3 M N D v u1 u2 u3 x y z)))).
Proof.
  intros HM HN HD. rewrite (sum_of_csum _ ws []).
  rewrite (csum_ext _ _ (fun i => csum3 M N D (fun a b c => csum3 M N D (fun x y z =>
     vox N D (nth i ws []) a b c * Cconj (vox N D (nth i ws []) x y z) * (part3 M N D v u1 u2 u3 a b c * Cconj (part3 M N D v u1 u2 u3 x y z)))))).
  - rewrite csum_csum3. apply csum3_ext. intros a b c _ _ _. rewrite csum_csum3. apply csum3_ext. intros x y z _ _ _. unfold kernel3. symmetry. now rewrite <- csum_scal_r.
  - intros i _. rewrite square_Cmod, conv3_parts by assumption. rewrite csum3_product. apply csum3_ext. intros a b c _ _ _. apply csum3_ext. intros x y z _ _ _. rewrite Cconj_mult. ring.
Qed.

(** ** Exchange of two axes *)
(** The first two axes ([true]) or the last two. *)
Definition ax1 (s : bool) (M N D : nat) : nat := if s then N else M.
Definition ax2 (s : bool) (M N D : nat) : nat := if s then M else D.
Definition ax3 (s : bool) (M N D : nat) : nat := if s then D else N.
Definition sw {T} (s : bool) (f : nat -> nat -> nat -> T) : nat -> nat -> nat -> T := fun a b c => if s then f b a c else f a c b.
Definition exchanged (s : bool) (M N D : nat) (v v' : list C) : Prop :=
  length v = (M * (N * D))%nat /\ length v' = (M * (N * D))%nat /\
  forall a b c, (a < M)%nat -> (b < N)%nat -> (c < D)%nat -> sw s (vox (ax2 s M N D) (ax3 s M N D) v') a b c = vox N D v a b c.
Lemma csum3_sw s M N D f : csum3 (ax1 s M N D) (ax2 s M N D) (ax3 s M N D) (sw s f) = csum3 M N D f.
Proof.
  destruct s; cbn [ax1 ax2 ax3]; unfold csum3, sw.
  - apply csum_swap.
  - apply csum_ext. intros a _. apply csum_swap.
Qed.
Lemma csum3_exchange s M N D f g : (forall a b c, (a < M)%nat -> (b < N)%nat -> (c < D)%nat -> sw s g a b c = f a b c) ->
  csum3 (ax1 s M N D) (ax2 s M N D) (ax3 s M N D) g = csum3 M N D f.
Proof.
  intros H. rewrite <- (csum3_sw s M N D f). apply csum3_ext. intros a b c Ha Hb Hc. destruct s; cbn [ax1 ax2 ax3 sw] in *; symmetry; now rewrite <- H.
Qed.
Lemma wave3_sw s M N D a b c d e g :
  wave3 (ax1 s M N D) (ax2 s M N D) (ax3 s M N D) (ax1 s a b c) (ax2 s a b c) (ax3 s a b c) (if s then e else d) (if s then d else g) (if s then g else e) = wave3 M N D a b c d e g.
Proof. destruct s; cbn [ax1 ax2 ax3]; unfold wave3; ring. Qed.
Lemma sw_at {T} s (f : nat -> nat -> nat -> T) a b c : sw s f a b c = f (ax1 s a b c) (ax2 s a b c) (ax3 s a b c).
Proof. now destruct s. Qed.
Lemma part3_sw s M N D v v' u1 u2 u3 a b c : exchanged s M N D v v' ->
  part3 (ax1 s M N D) (ax2 s M N D) (ax3 s M N D) v' (if s then u2 else u1) (if s then u1 else u3) (if s then u3 else u2) (ax1 s a b c) (ax2 s a b c) (ax3 s a b c) = part3 M N D v u1 u2 u3 a b c.
Proof.
  intros (_ & _ & H). unfold part3. apply csum3_exchange. intros x y z Hx Hy Hz. rewrite <- H by assumption. rewrite !sw_at. f_equal.
  rewrite <- (wave3_sw s M N D a b c (u1 - Z.of_nat x) (u2 - Z.of_nat y) (u3 - Z.of_nat z)). destruct s; reflexivity.
Qed.
(** Two families of filters with the same products. *)
Definition same_kernel (s : bool) (M N D : nat) (ws ws' : list (list C)) : Prop :=
  forall a b c x y z, (a < M)%nat -> (b < N)%nat -> (c < D)%nat -> (x < M)%nat -> (y < N)%nat -> (z < D)%nat ->
    kernel3 (ax2 s M N D) (ax3 s M N D) ws' (ax1 s a b c) (ax2 s a b c) (ax3 s a b c) (ax1 s x y z) (ax2 s x y z) (ax3 s x y z) = kernel3 N D ws a b c x y z.
Lemma U3_exchanged s M N D ws ws' v v' : (0 < M)%nat -> (0 < N)%nat -> (0 < D)%nat -> same_kernel s M N D ws ws' -> exchanged s M N D v v' ->
  exchanged s M N D (U3 M N D true ws v) (U3 (ax1 s M N D) (ax2 s M N D) (ax3 s M N D) true ws' v').
Proof.
  intros HM HN HD HK Hv. split; [apply U3_length|]. split; [rewrite U3_length; destruct s; cbn; ring|]. intros a b c Ha Hb Hc. rewrite sw_at. unfold U3.
  rewrite !vox_vol by (destruct s; cbn; assumption). do 2 f_equal. apply RtoC_inj. unfold envelope3.
  rewrite !squares_kernel by (destruct s; cbn; assumption). apply csum3_exchange. intros x y z Hx Hy Hz. rewrite sw_at. apply csum3_exchange. intros x' y' z' Hx' Hy' Hz'. rewrite sw_at.
  rewrite HK by assumption. f_equal.
  rewrite <- (part3_sw s M N D v v' (Z.of_nat a) (Z.of_nat b) (Z.of_nat c) x y z Hv), <- (part3_sw s M N D v v' (Z.of_nat a) (Z.of_nat b) (Z.of_nat c) x' y' z' Hv).
  destruct s; reflexivity.
Qed.
Lemma integral_exchanged s M N D q v v' : exchanged s M N D v v' -> integral q v' = integral q v.
Proof.
  intros (H1 & H2 & H). rewrite (integral_vox M N D q v H1). rewrite (integral_vox (ax1 s M N D) (ax2 s M N D) (ax3 s M N D) q v') by (rewrite H2; destruct s; cbn; ring).
  apply csum3_exchange. intros a b c Ha Hb Hc. rewrite sw_at. rewrite <- H by assumption. now rewrite sw_at.
Qed.
Lemma coefs3_exchanged s M N D F F' L J powers mo v v' : (0 < M)%nat -> (0 < N)%nat -> (0 < D)%nat -> (0 <= J)%Z ->
  (forall l j, (0 <= l <= L)%Z -> (0 <= j <= J)%Z -> same_kernel s M N D (comps F l j) (comps F' l j)) -> exchanged s M N D v v' ->
  coefs3 (ax1 s M N D) (ax2 s M N D) (ax3 s M N D) true F' L J powers mo v' = coefs3 M N D true F L J powers mo v.
Proof.
  intros HM HN HD HJ HK Hv. unfold coefs3. f_equal. apply map_ext_in. intros p Hp. f_equal. apply map_ext_in. intros l Hl. unfold moments. apply map_ext. intros q.
  apply (integral_exchanged s M N D). apply In_zrange in Hl.
  assert (Hj : Forall (fun j => 0 <= j <= J)%Z p).
  { destruct (C49_paths J mo HJ) as (_ & _ & _ & P). apply P in Hp as [(j & -> & Hj)|(_ & j1 & j2 & -> & Hj & Hj')]; repeat constructor; lia. }
  clear Hp. unfold U_path. revert v v' Hv. induction Hj as [|j p Hj _ IH]; intros v v' Hv; [exact Hv|]. cbn [fold_left]. apply IH. apply U3_exchanged; try assumption. apply HK; lia.
Qed.
