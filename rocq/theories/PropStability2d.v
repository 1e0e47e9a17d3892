(** Property C90: Lipschitz stability of Scattering2D in the supremum norm, with an explicit constant. *)
From Coq Require Import String Reals ZArith List Bool Arith Lia Lra.
From Coquelicot Require Import Coquelicot.
From Verif Require Import Base BaseProofs NdArray Backend NdProofs ComplexOps Dft Construct1d Utils1dProofs Rows1d StackProofs Backend2d Core2d FilterBank2d
  Frontend2d Images Rows2d Pad2d Eval2d Dft2 Value2d Conv2d Keys2d Path2d PropShapes2d PropValues2d.
Import ListNotations.
Local Open Scope nat_scope.

(** ** Vocabulary *)
(** The sum of the moduli of the pixels of an image of [M x N] pixels. *)
Definition sum_moduli (M N : nat) (h : list C) : R := Re (csum M (fun a => csum N (fun b => RtoC (Cmod (px N h a b))))).
(** The l1 norm of the impulse response of a filter given by its Fourier transform. *)
Definition impulse_norm (M N : nat) (w : list C) : R := sum_moduli M N (idft2 M N w).
(** The Lipschitz constant of a path: the norms of the impulse responses it goes through, each on the grid on which it is applied. *)
Definition gain2 (M N : nat) (J L : Z) (js ts : list Z) : R :=
  let at_scale j w := impulse_norm (M / 2 ^ Z.to_nat j) (N / 2 ^ Z.to_nat j) (restrict2 M N w (2 ^ Z.to_nat j)) in
  match js, ts with
  | [], _ => impulse_norm M N (phi_hat M N J)
  | [j1], t1 :: _ => (impulse_norm M N (psi_hat M N L j1 t1) * at_scale j1 (phi_hat M N J))%R
  | j1 :: j2 :: _, t1 :: t2 :: _ =>
    (impulse_norm M N (psi_hat M N L j1 t1) * at_scale j1 (psi_hat M N L j2 t2) * at_scale j2 (phi_hat M N J))%R
  | _, _ => 0%R
  end.

(** ** Closeness of images *)
Definition close2 (M N : nat) (B : R) (x y : list C) : Prop := forall a b, a < M -> b < N -> (Cmod (px N x a b - px N y a b)%C <= B)%R.

Lemma csum_minus n f g : (csum n f - csum n g)%C = csum n (fun i => f i - g i)%C.
Proof. induction n as [|n IH]; cbn [csum]; [ring|]. rewrite <- IH. ring. Qed.
Lemma Re_add (z z' : C) : Re (z + z')%C = (Re z + Re z')%R.
Proof. reflexivity. Qed.
Lemma Re_csum_le n f g : (forall i, i < n -> (Re (f i) <= Re (g i))%R) -> (Re (csum n f) <= Re (csum n g))%R.
Proof. induction n as [|n IH]; intros H; cbn [csum]; [cbn; lra|]. specialize (IH (fun i Hi => H i ltac:(lia))). specialize (H n ltac:(lia)). rewrite !Re_add. lra. Qed.
Lemma Cmod_csum_le n f : (Cmod (csum n f) <= Re (csum n (fun i => RtoC (Cmod (f i)))))%R.
Proof. induction n as [|n IH]; cbn [csum]; [rewrite Cmod_0; cbn; lra|]. eapply Rle_trans; [apply Cmod_triangle|]. rewrite Re_add. cbn [Re RtoC fst] in *. lra. Qed.

Lemma conv2_close M N B x y h u v : 0 < M -> 0 < N -> close2 M N B x y ->
  (Cmod (conv2 M N x h u v - conv2 M N y h u v)%C <= B * sum_moduli M N h)%R.
Proof.
  intros HM HN Hc. unfold conv2. rewrite csum_minus. eapply Rle_trans; [apply Cmod_csum_le|].
  unfold sum_moduli. rewrite <- (csum_reflect_Z M (fun a => csum N (fun b => RtoC (Cmod (px N h a b)))) u HM).
  replace (B * Re (csum M (fun m => csum N (fun b => RtoC (Cmod (px N h (Z.to_nat ((u - Z.of_nat m) mod Z.of_nat M)) b))))))%R
    with (Re (csum M (fun m => RtoC B * csum N (fun b => RtoC (Cmod (px N h (Z.to_nat ((u - Z.of_nat m) mod Z.of_nat M)) b))))%C)).
  2:{ rewrite csum_scal. destruct (csum M _) as [p q]. cbn. ring. }
  apply Re_csum_le. intros a Ha. rewrite csum_minus. change (Re (RtoC ?z)) with z. eapply Rle_trans; [apply Cmod_csum_le|].
  rewrite <- (csum_reflect_Z N (fun b => RtoC (Cmod (px N h (Z.to_nat ((u - Z.of_nat a) mod Z.of_nat M)) b))) v HN), <- csum_scal.
  apply Re_csum_le. intros b Hb.
  match goal with |- (Re (RtoC (Cmod (?x1 * ?h1 - ?y1 * ?h1)%C)) <= _)%R => replace (x1 * h1 - y1 * h1)%C with ((x1 - y1) * h1)%C by ring end.
  rewrite Cmod_mult, <- RtoC_mult. change (Re (RtoC ?z)) with z. apply Rmult_le_compat_r; [apply Cmod_ge_0|]. now apply Hc.
Qed.
Lemma modulus2_close M N B x y w r : 0 < M -> 0 < N -> close2 M N B x y ->
  close2 (M / r) (N / r) (B * impulse_norm M N w) (sampled_modulus2 M N x w r) (sampled_modulus2 M N y w r).
Proof.
  intros HM HN Hc a b Ha Hb. unfold sampled_modulus2. rewrite !px_img by assumption. rewrite <- RtoC_minus, Cmod_R.
  eapply Rle_trans; [|apply (conv2_close M N B x y (idft2 M N w) (Z.of_nat (r * a)) (Z.of_nat (r * b))); assumption].
  set (p := conv2 M N x _ _ _). set (q := conv2 M N y _ _ _).
  pose proof (Cmod_triangle (p - q)%C q) as H1. pose proof (Cmod_triangle (q - p)%C p) as H2.
  replace (p - q + q)%C with p in H1 by ring. replace (q - p + p)%C with q in H2 by ring.
  assert (E : Cmod (q - p)%C = Cmod (p - q)%C) by (replace (q - p)%C with (- (p - q))%C by ring; apply Cmod_opp).
  apply Rabs_le. lra.
Qed.
Lemma lowpass2_close M N B x y w r : 0 < M -> 0 < N -> close2 M N B x y ->
  close2 (M / r - 2) (N / r - 2) (B * impulse_norm M N w) (sampled_lowpass2 M N x w r) (sampled_lowpass2 M N y w r).
Proof.
  intros HM HN Hc a b Ha Hb. unfold sampled_lowpass2. rewrite !px_img by assumption. rewrite <- RtoC_minus, Cmod_R.
  eapply Rle_trans; [|apply (conv2_close M N B x y (idft2 M N w) (Z.of_nat (r * (a + 1))) (Z.of_nat (r * (b + 1)))); assumption].
  match goal with |- (Rabs (Re ?p - Re ?q) <= _)%R => replace (Re p - Re q)%R with (Re (p - q)%C) by (destruct p, q; cbn; ring) end.
  eapply Rle_trans; [|apply Rmax_Cmod]. apply Rmax_l.
Qed.
Lemma value2_close M N J L js ts B x y : (1 <= J)%Z -> 0 < M -> 0 < N -> Nat.divide (p2 J) M -> Nat.divide (p2 J) N -> label2 J L js ts -> close2 M N B x y ->
  close2 (M / p2 J - 2) (N / p2 J - 2) (B * gain2 M N J L js ts) (value2 M N J L js ts x) (value2 M N J L js ts y).
Proof.
  intros HJ HM HN DM DN Hl Hc. unfold gain2.
  destruct Hl as [(-> & ->)|[(j & t & -> & -> & Hj & Ht)|(j1 & t1 & j2 & t2 & -> & -> & H1 & H2 & Ht1 & Ht2)]]; cbn [value2].
  - unfold S0_val. change P with p2. now apply lowpass2_close.
  - unfold S1_val, U1_val. change P with p2. rewrite <- Rmult_assoc.
    destruct (sizes M N J HM HN j ltac:(lia)) as [E1 E2]. destruct (divs M N J HM HN DM DN j ltac:(lia)) as (_ & _ & P1 & P2). rewrite <- E1, <- E2.
    apply lowpass2_close; try assumption. now apply modulus2_close.
  - unfold S2_val, U2_val, U1_val. change P with p2. rewrite <- !Rmult_assoc.
    destruct (sizes M N J HM HN j2 ltac:(lia)) as [E1 E2]. destruct (divs M N J HM HN DM DN j2 ltac:(lia)) as (_ & _ & P1 & P2).
    destruct (divs M N J HM HN DM DN j1 ltac:(lia)) as (_ & _ & P3 & P4). rewrite <- E1, <- E2.
    apply lowpass2_close; try assumption.
    assert (Q1 : M / p2 j2 = M / p2 j1 / p2 (j2 - j1)) by (rewrite div_div_p2 by lia; f_equal; f_equal; lia).
    assert (Q2 : N / p2 j2 = N / p2 j1 / p2 (j2 - j1)) by (rewrite div_div_p2 by lia; f_equal; f_equal; lia). rewrite Q1, Q2.
    apply modulus2_close; try assumption. now apply modulus2_close.
Qed.

(** ** C90 *)
Theorem C90_lipschitz : forall p s pre x y, (1 <= a_J p)%Z -> (2 ^ a_J p <= a_M p)%Z -> (2 ^ a_J p <= a_N p)%Z -> a_out_type p = "list"%string ->
  ScatteringNumPy2D p = Ok s -> batch2 p pre x -> batch2 p pre y ->
  exists ps ps', scattering2 np2 s x = Ok (List2 ps) /\ scattering2 np2 s y = Ok (List2 ps') /\ List.length ps = List.length ps' /\
    forall k q q', nth_error ps k = Some q -> nth_error ps' k = Some q' -> r_j q' = r_j q /\ r_theta q' = r_theta q /\
      forall b D, b < prod pre ->
        (forall u v, u < in_M p -> v < in_N p -> (Cmod (px (in_N p) (image p b x) u v - px (in_N p) (image p b y) u v)%C <= D)%R) ->
        forall u v, u < out_M p -> v < out_N p ->
          (Cmod (px (out_N p) (coef p b q) u v - px (out_N p) (coef p b q') u v)%C <= D * gain2 (padded_M p) (padded_N p) (a_J p) (a_L p) (r_j q) (r_theta q))%R.
Proof.
  intros p s pre x y HJ HM HN Ho Hs Hx Hy. assert (Hp : valid2 p) by (split; [|split]; assumption).
  destruct (two_runs p Hp s pre pre x y Ho Hs Hx Hy) as (ps & ps' & E & E' & EL & H). exists ps, ps'. split; [exact E|]. split; [exact E'|]. split; [exact EL|].
  intros k q q' Hq Hq'. destruct (H k q q' Hq Hq') as (A1 & A2 & A3 & Hl & B & B'). split; [congruence|]. split; [congruence|]. intros b D Hb HD u v Hu Hv.
  rewrite B, B' by exact Hb. destruct (dims2 p Hp) as (P1 & P2 & D1 & D2). destruct (sizes2 p Hp) as [S1 S2].
  change (padded_M p) with (Mp p). change (padded_N p) with (Np p). change (out_M p) with (m2 p) in *. change (out_N p) with (n2 p) in *. rewrite <- S1 in Hu. rewrite <- S2 in *.
  refine (value2_close (Mp p) (Np p) (a_J p) (a_L p) (r_j q) (r_theta q) D _ _ HJ P1 P2 D1 D2 Hl _ u v Hu Hv).
  intros a c Ha Hc. unfold padded, in_M, in_N in *. destruct (a_pre_pad p); [now apply HD|]. change (padded_M p) with (Mp p). change (padded_N p) with (Np p).
  rewrite !px_img by assumption. pose proof (pos2 p Hp). apply HD; apply reflect_lt; lia.
Qed.
Print Assumptions C90_lipschitz.
Example C90_instance : forall x y, nd_wf x -> nd_dtype x = Real -> nd_shape x = [2; 5; 4] -> nd_wf y -> nd_dtype y = Real -> nd_shape y = [2; 5; 4] ->
  let p := mk_params2 2 5 4 3 2 false "list" in
  (forall u v, u < 5 -> v < 4 -> (Cmod (px 4 (image p 1 x) u v - px 4 (image p 1 y) u v)%C <= 3)%R) ->
  exists s ps ps', ScatteringNumPy2D p = Ok s /\ scattering2 np2 s x = Ok (List2 ps) /\ scattering2 np2 s y = Ok (List2 ps') /\
    forall k q q', nth_error ps k = Some q -> nth_error ps' k = Some q' ->
      (Cmod (px 1 (coef p 1 q) 0 0 - px 1 (coef p 1 q') 0 0)%C <= 3 * gain2 12 12 2 3 (r_j q) (r_theta q))%R.
Proof.
  intros x y Hw Hd Hs Hw' Hd' Hs' p HD. exists (npobj p).
  assert (Hn : ScatteringNumPy2D p = Ok (npobj p)) by (unfold ScatteringNumPy2D; rewrite new2_eval by (cbn; lia); reflexivity).
  destruct (C90_lipschitz p (npobj p) [2] x y) as (ps & ps' & E & E' & _ & H); try (cbn; lia); try reflexivity; try exact Hn; try (repeat split; assumption).
  exists ps, ps'. split; [exact Hn|]. split; [exact E|]. split; [exact E'|]. intros k q q' Hq Hq'. destruct (H k q q' Hq Hq') as (_ & _ & A).
  apply (A 1 3%R); [cbn; lia|exact HD|cbn; lia|cbn; lia].
Qed.
