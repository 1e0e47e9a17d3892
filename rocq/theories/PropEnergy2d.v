(** Property C105: Scattering2D is stable in the mean square. *)
From Coq Require Import String Reals ZArith List Bool Arith Lia Lra.
From Coquelicot Require Import Complex.
From Verif Require Energy1d.
From Verif Require Import FilterBank1d.
From Verif Require Import Base BaseProofs NdArray Backend NdProofs ComplexOps Dft Construct1d Utils1dProofs Rows1d StackProofs Backend2d Core2d FilterBank2d
  Frontend2d Images Rows2d Pad2d Eval2d Dft2 Value2d Conv2d Keys2d Path2d PropShapes2d PropValues2d Invariance1d PropStability2d.
Import ListNotations.
Local Open Scope nat_scope.

(** ** Vocabulary *)
(** The squared distance of two images of [M x N] pixels. *)
Definition dist2 (M N : nat) (x y : list C) : R := rsum M (fun a => rsum N (fun b => Cmod (px N x a b - px N y a b)%C ^ 2))%R.
(** How many times the padding can repeat a pixel along an axis of [n] pixels: three times, or five when the padding is as long as the axis. *)
Definition copies (p : params2) (n : Z) : R := if a_pre_pad p then 1%R else if (n =? 2 ^ a_J p)%Z then 5%R else 3%R.

(** ** Double sums *)
Lemma rsum_flat M N (f : nat -> nat -> R) : 0 < N -> rsum (M * N) (fun i => f (i / N) (i mod N)) = rsum M (fun a => rsum N (f a)).
Proof.
  intros HN. induction M as [|M IH]; [reflexivity|]. cbn [Nat.mul]. rewrite Nat.add_comm, Energy1d.rsum_cat, IH. cbn [rsum]. f_equal.
  apply rsum_ext. intros b Hb. f_equal.
  - symmetry. apply (Nat.div_unique _ N M b); lia.
  - symmetry. apply (Nat.mod_unique _ N M b); lia.
Qed.
Lemma cauchy2 M N (h d : nat -> nat -> R) : 0 < N -> (forall a b, 0 <= h a b)%R ->
  (rsum M (fun a => rsum N (fun b => h a b * d a b)) ^ 2 <=
   rsum M (fun a => rsum N (h a)) * rsum M (fun a => rsum N (fun b => h a b * d a b ^ 2)))%R.
Proof.
  intros HN Hh.
  rewrite <- (rsum_flat M N (fun a b => h a b * d a b)%R HN), <- (rsum_flat M N h HN), <- (rsum_flat M N (fun a b => h a b * d a b ^ 2)%R HN).
  apply (Energy1d.rsum_cauchy (M * N) (fun i => h (i / N) (i mod N)) (fun i => d (i / N) (i mod N))). intros; apply Hh.
Qed.
Lemma rsum2_le M N (f g : nat -> nat -> R) : (forall a b, a < M -> b < N -> (f a b <= g a b)%R) ->
  (rsum M (fun a => rsum N (f a)) <= rsum M (fun a => rsum N (g a)))%R.
Proof. intros H. apply rsum_le. intros a Ha. apply rsum_le. intros b Hb. now apply H. Qed.
Lemma rsum2_scal M N c (f : nat -> nat -> R) : rsum M (fun a => rsum N (fun b => c * f a b))%R = (c * rsum M (fun a => rsum N (f a)))%R.
Proof. rewrite <- Energy1d.rsum_scal. apply rsum_ext. intros a _. apply Energy1d.rsum_scal. Qed.
(** Exchanging two double sums. *)
Lemma rsum4_swap M N M' N' (f : nat -> nat -> nat -> nat -> R) :
  rsum M (fun a => rsum N (fun b => rsum M' (fun c => rsum N' (fun d => f a b c d)))) =
  rsum M' (fun c => rsum N' (fun d => rsum M (fun a => rsum N (fun b => f a b c d)))).
Proof.
  rewrite (rsum_ext M _ (fun a => rsum M' (fun c => rsum N (fun b => rsum N' (fun d => f a b c d))))) by (intros; apply Energy1d.rsum_swap).
  rewrite Energy1d.rsum_swap. apply rsum_ext. intros c _.
  rewrite (rsum_ext M _ (fun a => rsum N' (fun d => rsum N (fun b => f a b c d)))) by (intros; apply Energy1d.rsum_swap).
  apply Energy1d.rsum_swap.
Qed.
Lemma sum_moduli_rsum M N h : sum_moduli M N h = rsum M (fun a => rsum N (fun b => Cmod (px N h a b))).
Proof.
  unfold sum_moduli. rewrite (csum_ext M _ (fun a => RtoC (rsum N (fun b => Cmod (px N h a b))))) by (intros; apply rsum_csum).
  rewrite rsum_csum. reflexivity.
Qed.
(** Sums over a grid. *)
Lemma rsum2_every M N r (f : nat -> nat -> R) : (forall a b, 0 <= f a b)%R ->
  (rsum (M / r)%nat (fun a => rsum (N / r)%nat (fun b => f (r * a)%nat (r * b)%nat)) <= rsum M (fun a => rsum N (f a)))%R.
Proof.
  intros Hf. apply Rle_trans with (rsum (M / r) (fun a => rsum N (f (r * a)))).
  - apply rsum_le. intros a _. apply (Energy1d.rsum_every N r (f (r * a))). intros; apply Hf.
  - apply (Energy1d.rsum_every M r (fun a => rsum N (f a))). intros. apply rsum_pos. intros; apply Hf.
Qed.
Lemma rsum_inner n f : (forall i, 0 <= f i)%R -> (rsum (n - 2)%nat (fun i => f (i + 1)%nat) <= rsum n f)%R.
Proof.
  intros Hf. destruct n as [|n]; [cbn; lra|]. apply Rle_trans with (rsum (1 + (S n - 2)) f); [|apply Energy1d.rsum_more; [exact Hf|lia]].
  rewrite Energy1d.rsum_cat. pose proof (rsum_pos 1 f ltac:(intros; apply Hf)).
  rewrite (rsum_ext (S n - 2) (fun i => f (i + 1)) (fun i => f (1 + i))) by (intros; f_equal; lia). lra.
Qed.
Lemma rsum2_inner m n (f : nat -> nat -> R) : (forall a b, 0 <= f a b)%R ->
  (rsum (m - 2)%nat (fun a => rsum (n - 2)%nat (fun b => f (a + 1)%nat (b + 1)%nat)) <= rsum m (fun a => rsum n (f a)))%R.
Proof.
  intros Hf. apply Rle_trans with (rsum (m - 2) (fun a => rsum n (f (a + 1)))).
  - apply rsum_le. intros a _. apply (rsum_inner n (f (a + 1))). intros; apply Hf.
  - apply (rsum_inner m (fun a => rsum n (f a))). intros. apply rsum_pos. intros; apply Hf.
Qed.

(** ** Young's inequality in mean square *)
Lemma conv2_dist2 M N x y h : 0 < M -> 0 < N ->
  (rsum M (fun u => rsum N (fun v => Cmod (conv2 M N x h (Z.of_nat u) (Z.of_nat v) - conv2 M N y h (Z.of_nat u) (Z.of_nat v))%C ^ 2)) <=
   sum_moduli M N h ^ 2 * dist2 M N x y)%R.
Proof.
  intros HM HN. rewrite sum_moduli_rsum. set (n1 := rsum M (fun a => rsum N (fun b => Cmod (px N h a b)))).
  set (H := fun u v a b : nat => Cmod (px N h (Z.to_nat ((Z.of_nat u - Z.of_nat a) mod Z.of_nat M)) (Z.to_nat ((Z.of_nat v - Z.of_nat b) mod Z.of_nat N)))).
  set (d := fun a b => Cmod (px N x a b - px N y a b)%C).
  assert (E1 : forall u v, rsum M (fun a => rsum N (H u v a)) = n1).
  { intros u v. unfold n1. rewrite <- (Energy1d.rsum_reflect M (fun a => rsum N (fun b => Cmod (px N h a b))) (Z.of_nat u) HM).
    apply rsum_ext. intros a _. exact (Energy1d.rsum_reflect N (fun b => Cmod (px N h (Z.to_nat ((Z.of_nat u - Z.of_nat a) mod Z.of_nat M)) b)) (Z.of_nat v) HN). }
  assert (E2 : forall a b, rsum M (fun u => rsum N (fun v => H u v a b)) = n1).
  { intros a b. unfold n1. rewrite <- (Energy1d.rsum_turn M (fun u => rsum N (fun v => Cmod (px N h u v))) (Z.of_nat a) HM).
    apply rsum_ext. intros u _. exact (Energy1d.rsum_turn N (fun v => Cmod (px N h (Z.to_nat ((Z.of_nat u - Z.of_nat a) mod Z.of_nat M)) v)) (Z.of_nat b) HN). }
  apply Rle_trans with (rsum M (fun u => rsum N (fun v => n1 * rsum M (fun a => rsum N (fun b => H u v a b * d a b ^ 2)))))%R.
  - apply rsum2_le. intros u v _ _. rewrite <- (E1 u v).
    apply Rle_trans with (rsum M (fun a => rsum N (fun b => H u v a b * d a b)) ^ 2)%R; [|apply cauchy2; [exact HN|intros; apply Cmod_ge_0]].
    apply pow_incr. split; [apply Cmod_ge_0|]. unfold conv2. rewrite csum_minus. eapply Rle_trans; [apply Cmod_csum_le|]. rewrite rsum_csum.
    change (Re (RtoC ?z)) with z. apply rsum_le. intros a _. rewrite csum_minus. eapply Rle_trans; [apply Cmod_csum_le|]. rewrite rsum_csum.
    change (Re (RtoC ?z)) with z. right. apply rsum_ext. intros b _.
    match goal with |- Cmod (?x1 * ?h1 - ?y1 * ?h1)%C = _ => replace (x1 * h1 - y1 * h1)%C with (h1 * (x1 - y1))%C by ring end.
    now rewrite Cmod_mult.
  - right. rewrite rsum2_scal, rsum4_swap. unfold dist2.
    rewrite (rsum_ext M _ (fun a => rsum N (fun b => n1 * d a b ^ 2)%R)); [rewrite rsum2_scal; unfold d; ring|].
    intros a _. apply rsum_ext. intros b _.
    rewrite (rsum_ext M _ (fun u => rsum N (fun v => d a b ^ 2 * H u v a b)%R)) by (intros; apply rsum_ext; intros; ring). rewrite rsum2_scal, E2. ring.
Qed.
Lemma sample_dist2 M N (F G : Z -> Z -> R) (P Q : Z -> Z -> C) r : (forall u v, Rabs (F u v - G u v) <= Cmod (P u v - Q u v)%C)%R ->
  (rsum (M / r)%nat (fun a => rsum (N / r)%nat (fun b => Cmod (RtoC (F (Z.of_nat (r * a)%nat) (Z.of_nat (r * b)%nat)) - RtoC (G (Z.of_nat (r * a)%nat) (Z.of_nat (r * b)%nat)))%C ^ 2)) <=
   rsum M (fun u => rsum N (fun v => Cmod (P (Z.of_nat u) (Z.of_nat v) - Q (Z.of_nat u) (Z.of_nat v))%C ^ 2)))%R.
Proof.
  intros H. eapply Rle_trans; [|apply (rsum2_every M N r (fun u v => Cmod (P (Z.of_nat u) (Z.of_nat v) - Q (Z.of_nat u) (Z.of_nat v))%C ^ 2)%R); intros; apply pow2_ge_0].
  apply rsum2_le. intros a b _ _. apply pow_incr. split; [apply Cmod_ge_0|]. rewrite <- RtoC_minus, Cmod_R. apply H.
Qed.
Lemma Cmod_sub_abs a b : (Rabs (Cmod a - Cmod b) <= Cmod (a - b)%C)%R.
Proof.
  pose proof (Cmod_triangle (a - b)%C b) as H1. pose proof (Cmod_triangle (b - a)%C a) as H2.
  replace (a - b + b)%C with a in H1 by ring. replace (b - a + a)%C with b in H2 by ring.
  assert (E : Cmod (b - a)%C = Cmod (a - b)%C) by (replace (b - a)%C with (- (a - b))%C by ring; apply Cmod_opp).
  apply Rabs_le. lra.
Qed.
Lemma Re_sub_abs a b : (Rabs (Re a - Re b) <= Cmod (a - b)%C)%R.
Proof. replace (Re a - Re b)%R with (Re (a - b)%C) by (destruct a, b; cbn; ring). eapply Rle_trans; [|apply Rmax_Cmod]. apply Rmax_l. Qed.
Lemma modulus2_dist M N E x y w r : 0 < M -> 0 < N -> (dist2 M N x y <= E)%R ->
  (dist2 (M / r)%nat (N / r)%nat (sampled_modulus2 M N x w r) (sampled_modulus2 M N y w r) <= E * impulse_norm M N w ^ 2)%R.
Proof.
  intros HM HN HE. eapply Rle_trans; [right|eapply Rle_trans; [apply (sample_dist2 M N (fun u v => Cmod (conv2 M N x (idft2 M N w) u v)) (fun u v => Cmod (conv2 M N y (idft2 M N w) u v))
     (fun u v => conv2 M N x (idft2 M N w) u v) (fun u v => conv2 M N y (idft2 M N w) u v) r); intros; apply Cmod_sub_abs|]].
  - unfold dist2. apply rsum_ext. intros a Ha. apply rsum_ext. intros b Hb. unfold sampled_modulus2. now rewrite !px_img by assumption.
  - eapply Rle_trans; [apply conv2_dist2; assumption|]. fold (impulse_norm M N w). rewrite Rmult_comm. apply Rmult_le_compat_r; [apply pow2_ge_0|exact HE].
Qed.
Lemma lowpass2_dist M N E x y w r : 0 < M -> 0 < N -> (dist2 M N x y <= E)%R ->
  (dist2 (M / r - 2)%nat (N / r - 2)%nat (sampled_lowpass2 M N x w r) (sampled_lowpass2 M N y w r) <= E * impulse_norm M N w ^ 2)%R.
Proof.
  intros HM HN HE. set (F := fun u v => Re (conv2 M N x (idft2 M N w) u v)). set (G := fun u v => Re (conv2 M N y (idft2 M N w) u v)).
  set (f := fun a b => (Cmod (RtoC (F (Z.of_nat (r * a)%nat) (Z.of_nat (r * b)%nat)) - RtoC (G (Z.of_nat (r * a)%nat) (Z.of_nat (r * b)%nat)))%C ^ 2)%R).
  apply Rle_trans with (rsum (M / r - 2) (fun a => rsum (N / r - 2) (fun b => f (a + 1) (b + 1)))).
  - right. unfold dist2. apply rsum_ext. intros a Ha. apply rsum_ext. intros b Hb. unfold sampled_lowpass2. now rewrite !px_img by assumption.
  - eapply Rle_trans; [apply rsum2_inner; intros; apply pow2_ge_0|].
    eapply Rle_trans; [apply (sample_dist2 M N F G (fun u v => conv2 M N x (idft2 M N w) u v) (fun u v => conv2 M N y (idft2 M N w) u v) r); intros; apply Re_sub_abs|].
    eapply Rle_trans; [apply conv2_dist2; assumption|]. fold (impulse_norm M N w). rewrite Rmult_comm. apply Rmult_le_compat_r; [apply pow2_ge_0|exact HE].
Qed.
Lemma value2_dist M N J L js ts E x y : (1 <= J)%Z -> 0 < M -> 0 < N -> Nat.divide (p2 J) M -> Nat.divide (p2 J) N -> label2 J L js ts -> (dist2 M N x y <= E)%R ->
  (dist2 (M / p2 J - 2)%nat (N / p2 J - 2)%nat (value2 M N J L js ts x) (value2 M N J L js ts y) <= E * gain2 M N J L js ts ^ 2)%R.
Proof.
  intros HJ HM HN DM DN Hl Hc. unfold gain2.
  destruct Hl as [(-> & ->)|[(j & t & -> & -> & Hj & Ht)|(j1 & t1 & j2 & t2 & -> & -> & H1 & H2 & Ht1 & Ht2)]]; cbn [value2].
  - unfold S0_val. change P with p2. now apply lowpass2_dist.
  - unfold S1_val, U1_val. change P with p2. rewrite Rpow_mult_distr, <- Rmult_assoc.
    destruct (sizes M N J HM HN j ltac:(lia)) as [E1 E2]. destruct (divs M N J HM HN DM DN j ltac:(lia)) as (_ & _ & P1 & P2). rewrite <- E1, <- E2.
    apply lowpass2_dist; try assumption. now apply modulus2_dist.
  - unfold S2_val, U2_val, U1_val. change P with p2. rewrite !Rpow_mult_distr, <- !Rmult_assoc. change (2 ^ Z.to_nat j1) with (p2 j1). change (2 ^ Z.to_nat j2) with (p2 j2).
    destruct (sizes M N J HM HN j2 ltac:(lia)) as [E1 E2]. destruct (divs M N J HM HN DM DN j2 ltac:(lia)) as (_ & _ & P1 & P2).
    destruct (divs M N J HM HN DM DN j1 ltac:(lia)) as (_ & _ & P3 & P4). rewrite <- E1, <- E2.
    apply lowpass2_dist; try assumption.
    assert (Q1 : M / p2 j2 = M / p2 j1 / p2 (j2 - j1)) by (rewrite div_div_p2 by lia; f_equal; f_equal; lia).
    assert (Q2 : N / p2 j2 = N / p2 j1 / p2 (j2 - j1)) by (rewrite div_div_p2 by lia; f_equal; f_equal; lia). rewrite Q1, Q2.
    apply modulus2_dist; try assumption. now apply modulus2_dist.
Qed.

(** ** Padding *)
Lemma rsum_reflected n t b F : 2 <= n -> pad_ok n t b -> (forall i, 0 <= F i)%R ->
  (rsum (t + n + b)%nat (fun u => F (reflect n (Z.of_nat u - Z.of_nat t))) <= (if Nat.eqb t n then 5 else 3) * rsum n F)%R.
Proof.
  intros Hn Hp HF. rewrite !Energy1d.rsum_cat.
  assert (Z0 : (0 <= rsum n F)%R) by (apply rsum_pos; intros; apply HF).
  assert (T : forall i, i < n -> (F i <= rsum n F)%R) by (intros i Hi; apply rsum_term; [intros; apply HF|exact Hi]).
  assert (Even : forall i, reflect n (- i) = reflect n i) by (intros i; apply (C43_reflect n i Hn)).
  assert (A : forall t', t' < n -> (rsum t' (fun i => F (reflect n (Z.of_nat (S i)))) <= rsum n F)%R).
  { intros t' Ht. apply Rle_trans with (rsum (1 + t') F); [|apply Energy1d.rsum_more; [exact HF|lia]]. rewrite Energy1d.rsum_cat.
    pose proof (rsum_pos 1 F ltac:(intros; apply HF)).
    rewrite (rsum_ext t' _ (fun i => F (1 + i))); [lra|]. intros i Hi. f_equal. rewrite reflect_inside by lia. lia. }
  assert (B : forall b', b' < n -> (rsum b' (fun i => F (reflect n (Z.of_nat (n + i)%nat))) <= rsum n F)%R).
  { intros b' Hb. rewrite (rsum_ext b' _ (fun u => F ((n - 1 - b') + (b' - 1 - u)))).
    - rewrite (Energy1d.rsum_rev' b' (fun i => F ((n - 1 - b') + i))). apply Rle_trans with (rsum ((n - 1 - b') + b') F); [|apply Energy1d.rsum_more; [exact HF|lia]].
      rewrite (Energy1d.rsum_cat (n - 1 - b') b'). pose proof (rsum_pos (n - 1 - b') F ltac:(intros; apply HF)). lra.
    - intros u Hu. f_equal. rewrite reflect_near by lia. unfold reflect_index.
      destruct (Z.ltb_spec (Z.of_nat (n + u)) 0); [lia|]. destruct (Z.ltb_spec (Z.of_nat (n + u)) (Z.of_nat n)); lia. }
  assert (L : rsum t (fun u => F (reflect n (Z.of_nat u - Z.of_nat t))) = rsum t (fun i => F (reflect n (Z.of_nat (S i))))).
  { rewrite <- (Energy1d.rsum_rev' t (fun i => F (reflect n (Z.of_nat (S i))))). apply rsum_ext. intros u Hu. f_equal. rewrite <- Even. f_equal. lia. }
  assert (M : rsum n (fun i => F (reflect n (Z.of_nat (t + i) - Z.of_nat t))) = rsum n F).
  { apply rsum_ext. intros i Hi. f_equal. rewrite reflect_inside by lia. lia. }
  assert (R : rsum b (fun i => F (reflect n (Z.of_nat (t + n + i) - Z.of_nat t))) = rsum b (fun i => F (reflect n (Z.of_nat (n + i))))).
  { apply rsum_ext. intros i Hi. do 2 f_equal. lia. }
  rewrite L, M, R. destruct Hp as [[Ht Hb]|[-> ->]].
  - destruct (Nat.eqb_spec t n); [lia|]. specialize (A t Ht). specialize (B b Hb). lra.
  - rewrite Nat.eqb_refl. specialize (A (n - 1) ltac:(lia)). specialize (B (n - 1) ltac:(lia)).
    set (f := fun i => F (reflect n (Z.of_nat (S i)))) in *. set (g := fun i => F (reflect n (Z.of_nat (n + i)))) in *.
    replace (rsum n f) with (rsum (S (n - 1)) f) by (f_equal; lia). replace (rsum n g) with (rsum (S (n - 1)) g) by (f_equal; lia). cbn [rsum].
    assert (f (n - 1)%nat <= rsum n F)%R by (apply T, Pad2d.reflect_lt; lia). assert (g (n - 1)%nat <= rsum n F)%R by (apply T, Pad2d.reflect_lt; lia). lra.
Qed.
Lemma padded_dist2 p x y : valid2 p -> (dist2 (Mp p) (Np p) (padded p x) (padded p y) <= copies p (a_M p) * copies p (a_N p) * dist2 (in_M p) (in_N p) x y)%R.
Proof.
  intros Hp. unfold copies, in_M, in_N. rewrite !padded_is by exact Hp. destruct (a_pre_pad p).
  { right. change (padded_M p) with (Mp p). change (padded_N p) with (Np p). ring. }
  pose proof (pos2 p Hp) as [M2 N2]. destruct (pads2_nat p Hp) as (_ & E1 & E2). destruct Hp as (HJ & HM & HN).
  assert (HP : (0 < 2 ^ a_J p)%Z) by (apply Z.pow_pos_nonneg; lia).
  pose proof (left_right (a_M p) (a_J p) ltac:(lia)) as (L1 & L2 & L3 & L4). pose proof (left_right (a_N p) (a_J p) ltac:(lia)) as (R1 & R2 & R3 & R4).
  pose proof (pad_ok_frontend (a_M p) (a_J p) ltac:(lia) ltac:(lia)) as OM. pose proof (pad_ok_frontend (a_N p) (a_J p) ltac:(lia) ltac:(lia)) as ON.
  set (M := Z.to_nat (a_M p)) in *. set (N := Z.to_nat (a_N p)) in *.
  set (t := Z.to_nat (left_pad (a_M p) (a_J p))) in *. set (b := Z.to_nat (right_pad (a_M p) (a_J p))) in *.
  set (l := Z.to_nat (left_pad (a_N p) (a_J p))) in *. set (r := Z.to_nat (right_pad (a_N p) (a_J p))) in *.
  assert (Full : forall n : Z, (2 ^ a_J p <= n)%Z -> Nat.eqb (Z.to_nat (left_pad n (a_J p))) (Z.to_nat n) = (n =? 2 ^ a_J p)%Z).
  { intros n Hn. destruct (padded_total n (a_J p) ltac:(lia)) as [_ Et]. pose proof (left_right n (a_J p) ltac:(lia)) as (X1 & X2 & X3 & X4).
    destruct (Z.eqb_spec n (2 ^ a_J p)) as [E|E]; [apply Nat.eqb_eq|apply Nat.eqb_neq]; [|lia].
    assert (n mod 2 ^ a_J p = 0)%Z by (rewrite E; apply Z_mod_same_full). lia. }
  assert (FM : Nat.eqb t M = (a_M p =? 2 ^ a_J p)%Z) by (apply Full; lia). assert (FN : Nat.eqb l N = (a_N p =? 2 ^ a_J p)%Z) by (apply Full; lia).
  set (F := fun i j => (Cmod (px N x i j - px N y i j)%C ^ 2)%R). assert (F0 : forall i j, (0 <= F i j)%R) by (intros; apply pow2_ge_0).
  apply Rle_trans with (rsum (t + M + b) (fun u => rsum (l + N + r) (fun v => F (reflect M (Z.of_nat u - Z.of_nat t)) (reflect N (Z.of_nat v - Z.of_nat l))))).
  - right. unfold dist2. rewrite <- E1, <- E2. apply rsum_ext. intros u Hu. apply rsum_ext. intros v Hv. unfold padim, pad_img. fold M N t b l r.
    now rewrite !px_img by assumption.
  - set (cM := if (a_M p =? 2 ^ a_J p)%Z then 5%R else 3%R). set (cN := if (a_N p =? 2 ^ a_J p)%Z then 5%R else 3%R).
    assert (0 <= cN)%R by (unfold cN; clear; case (a_N p =? 2 ^ a_J p)%Z; lra).
    apply Rle_trans with (rsum (t + M + b)%nat (fun u => cN * rsum N (fun j => F (reflect M (Z.of_nat u - Z.of_nat t)) j)))%R.
    + apply rsum_le. intros u _. pose proof (rsum_reflected N l r (fun j => F (reflect M (Z.of_nat u - Z.of_nat t)) j) N2 ON ltac:(intros; apply F0)) as X.
      rewrite FN in X. exact X.
    + rewrite Energy1d.rsum_scal. pose proof (rsum_reflected M t b (fun i => rsum N (F i)) M2 OM ltac:(intros; apply rsum_pos; intros; apply F0)) as X.
      rewrite FM in X. fold cM in X. unfold dist2. replace (cM * cN * rsum M (fun a => rsum N (fun b0 => Cmod (px N x a b0 - px N y a b0)%C ^ 2)))%R
        with (cN * (cM * rsum M (fun i => rsum N (F i))))%R by (unfold F; ring). apply Rmult_le_compat_l; [assumption|exact X].
Qed.

(** ** C105 *)
Theorem C105_mean_square : forall p s pre x y, (1 <= a_J p)%Z -> (2 ^ a_J p <= a_M p)%Z -> (2 ^ a_J p <= a_N p)%Z -> a_out_type p = "list"%string ->
  ScatteringNumPy2D p = Ok s -> batch2 p pre x -> batch2 p pre y ->
  exists ps ps', scattering2 np2 s x = Ok (List2 ps) /\ scattering2 np2 s y = Ok (List2 ps') /\ List.length ps = List.length ps' /\
    forall k q q', nth_error ps k = Some q -> nth_error ps' k = Some q' -> r_j q' = r_j q /\ r_theta q' = r_theta q /\
      forall b, b < prod pre ->
        (rsum (out_M p) (fun u => rsum (out_N p) (fun v => Cmod (px (out_N p) (coef p b q) u v - px (out_N p) (coef p b q') u v)%C ^ 2)) <=
         copies p (a_M p) * copies p (a_N p) * gain2 (padded_M p) (padded_N p) (a_J p) (a_L p) (r_j q) (r_theta q) ^ 2 *
         rsum (in_M p) (fun u => rsum (in_N p) (fun v => Cmod (px (in_N p) (image p b x) u v - px (in_N p) (image p b y) u v)%C ^ 2)))%R.
Proof.
  intros p s pre x y HJ HM HN Ho Hs Hx Hy. assert (Hp : valid2 p) by (split; [|split]; assumption).
  destruct (two_runs p Hp s pre pre x y Ho Hs Hx Hy) as (ps & ps' & E & E' & EL & H). exists ps, ps'. split; [exact E|]. split; [exact E'|]. split; [exact EL|].
  intros k q q' Hq Hq'. destruct (H k q q' Hq Hq') as (A1 & A2 & A3 & Hl & B & B'). split; [congruence|]. split; [congruence|]. intros b Hb.
  rewrite B, B' by exact Hb. destruct (dims2 p Hp) as (P1 & P2 & D1 & D2). destruct (sizes2 p Hp) as [S1 S2].
  change (padded_M p) with (Mp p). change (padded_N p) with (Np p). change (out_M p) with (m2 p). change (out_N p) with (n2 p). rewrite <- S1, <- S2.
  pose proof (value2_dist (Mp p) (Np p) (a_J p) (a_L p) (r_j q) (r_theta q) _ _ _ HJ P1 P2 D1 D2 Hl (padded_dist2 p (image p b x) (image p b y) Hp)) as V.
  unfold dist2 in V. eapply Rle_trans; [exact V|]. right. ring.
Qed.
Print Assumptions C105_mean_square.

(** Two batches of two images of 5 x 4 pixels. The padding is as long as the second axis only (J = 2). *)
Example C105_instance : forall x y, nd_wf x -> nd_dtype x = Real -> nd_shape x = [2; 5; 4] -> nd_wf y -> nd_dtype y = Real -> nd_shape y = [2; 5; 4] ->
  let p := mk_params2 2 5 4 3 2 false "list" in
  (rsum 5 (fun u => rsum 4 (fun v => Cmod (px 4 (image p 1 x) u v - px 4 (image p 1 y) u v)%C ^ 2)) <= 2)%R ->
  exists s ps ps', ScatteringNumPy2D p = Ok s /\ scattering2 np2 s x = Ok (List2 ps) /\ scattering2 np2 s y = Ok (List2 ps') /\
    forall k q q', nth_error ps k = Some q -> nth_error ps' k = Some q' ->
      (Cmod (px 1 (coef p 1 q) 0 0 - px 1 (coef p 1 q') 0 0)%C ^ 2 <= 30 * gain2 12 12 2 3 (r_j q) (r_theta q) ^ 2)%R.
Proof.
  intros x y Hw Hd Hs Hw' Hd' Hs' p HD. exists (npobj p).
  assert (Hn : ScatteringNumPy2D p = Ok (npobj p)) by (unfold ScatteringNumPy2D; rewrite new2_eval by (cbn; lia); reflexivity).
  destruct (C105_mean_square p (npobj p) [2] x y) as (ps & ps' & E & E' & _ & H); try (cbn; lia); try reflexivity; try exact Hn; try (repeat split; assumption).
  exists ps, ps'. split; [exact Hn|]. split; [exact E|]. split; [exact E'|]. intros k q q' Hq Hq'. destruct (H k q q' Hq Hq') as (_ & _ & A).
  specialize (A 1 ltac:(cbn; lia)).
  assert (O1 : out_M p = 1) by reflexivity. assert (O2 : out_N p = 1) by reflexivity. assert (I1 : in_M p = 5) by reflexivity. assert (I2 : in_N p = 4) by reflexivity.
  assert (Q1 : padded_M p = 12) by reflexivity. assert (Q2 : padded_N p = 12) by reflexivity.
  assert (K1 : copies p (a_M p) = 3%R) by reflexivity. assert (K2 : copies p (a_N p) = 5%R) by reflexivity.
  rewrite O1, O2, I1, I2, Q1, Q2, K1, K2 in A. change (a_J p) with 2%Z in A. change (a_L p) with 3%Z in A.
  set (G := (gain2 12 12 2 3 (r_j q) (r_theta q) ^ 2)%R) in *. assert (0 <= G)%R by apply pow2_ge_0.
  set (D := rsum 5 _) in *. cbn [rsum] in A. nra.
Qed.
