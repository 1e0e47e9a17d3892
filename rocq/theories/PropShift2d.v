(** Property C108: Scattering2D hardly moves under translations short before 2^J. *)
From Coq Require Import String Reals ZArith List Bool Arith Lia Lra.
From Coquelicot Require Import Complex.
From Verif Require Import FilterBank1d.
From Verif Require Import Base BaseProofs NdArray Backend NdProofs ComplexOps Dft Construct1d Utils1dProofs Rows1d StackProofs Backend2d Core2d FilterBank2d
  Frontend2d Images Rows2d Pad2d Eval2d Dft2 Value2d Conv2d Keys2d Path2d PropShapes2d PropValues2d Invariance1d PropStability2d PropEnergy2d Shift2d.
Import ListNotations.
Local Open Scope nat_scope.

(** ** Vocabulary *)
(** The energy of an image of [M x N] pixels. *)
Definition energy2 (M N : nat) (x : list C) : R := rsum M (fun a => rsum N (fun b => Cmod (px N x a b) ^ 2))%R.
(** The step, in pixels, of the grid on which a path meets the low-pass filter: 2^j for the scale j of its last wavelet, 1 without wavelet. *)
Definition grid_step (js : list Z) : Z := match js with [] => 1 | [j1] => 2 ^ j1 | _ :: j2 :: _ => 2 ^ j2 end%Z.
(** The norms of the impulse responses of the wavelets a path goes through, each on the grid on which it is applied. *)
Definition wavelets_gain (M N : nat) (L : Z) (js ts : list Z) : R :=
  match js, ts with
  | [], _ => 1%R
  | [j1], t1 :: _ => impulse_norm M N (psi_hat M N L j1 t1)
  | j1 :: j2 :: _, t1 :: t2 :: _ =>
    (impulse_norm M N (psi_hat M N L j1 t1) *
     impulse_norm (M / 2 ^ Z.to_nat j1) (N / 2 ^ Z.to_nat j1) (restrict2 M N (psi_hat M N L j2 t2) (2 ^ Z.to_nat j1)))%R
  | _, _ => 0%R
  end.

(** ** C108 *)
Theorem C108_translation : forall p s pre x x' d e, (1 <= a_J p)%Z -> (2 ^ a_J p <= a_M p)%Z -> (2 ^ a_J p <= a_N p)%Z -> a_out_type p = "list"%string -> a_pre_pad p = true ->
  ScatteringNumPy2D p = Ok s -> batch2 p pre x -> batch2 p pre x' ->
  (forall b, b < prod pre -> image p b x' = translate (in_M p) (in_N p) d e (image p b x)) ->
  exists ps ps', scattering2 np2 s x = Ok (List2 ps) /\ scattering2 np2 s x' = Ok (List2 ps') /\ List.length ps = List.length ps' /\
    forall k q q', nth_error ps k = Some q -> nth_error ps' k = Some q' -> r_j q' = r_j q /\ r_theta q' = r_theta q /\
      forall b, b < prod pre -> (grid_step (r_j q) | d)%Z -> (grid_step (r_j q) | e)%Z ->
        (rsum (out_M p) (fun u => rsum (out_N p) (fun v => Cmod (px (out_N p) (coef p b q') u v - px (out_N p) (coef p b q) u v)%C ^ 2)) <=
         (3 * (IZR (Z.abs d) + IZR (Z.abs e)) / 2 ^ Z.to_nat (a_J p) * wavelets_gain (padded_M p) (padded_N p) (a_L p) (r_j q) (r_theta q)) ^ 2 *
         energy2 (in_M p) (in_N p) (image p b x))%R.
Proof.
  intros p s pre x x' d e HJ HM HN Ho Hpp Hs Hx Hx' Htr. assert (Hp : valid2 p) by (split; [|split]; assumption).
  destruct (two_runs p Hp s pre pre x x' Ho Hs Hx Hx') as (ps & ps' & E & E' & EL & H). exists ps, ps'. split; [exact E|]. split; [exact E'|]. split; [exact EL|].
  intros k q q' Hq Hq'. destruct (H k q q' Hq Hq') as (A1 & A2 & A3 & Hl & B & B'). split; [congruence|]. split; [congruence|]. intros b Hb Hd He.
  rewrite B, B' by exact Hb. rewrite Htr by exact Hb. unfold padded. rewrite Hpp. unfold in_M, in_N in *. rewrite Hpp in *.
  destruct (dims2 p Hp) as (P1 & P2 & D1 & D2). destruct (sizes2 p Hp) as [S1 S2].
  change (padded_M p) with (Mp p) in *. change (padded_N p) with (Np p) in *. change (out_M p) with (m2 p) in *. change (out_N p) with (n2 p) in *.
  rewrite <- S1, <- S2. change (translate (Mp p) (Np p)) with (rot2 (Mp p) (Np p)).
  assert (Eg : grid_step (r_j q) = (2 ^ last_scale (r_j q))%Z) by (unfold grid_step, last_scale; destruct (r_j q) as [|j1 [|j2 l]]; reflexivity).
  rewrite Eg in Hd, He. destruct Hd as [d' Hd], He as [e' He].
  pose proof (value2_shift (Mp p) (Np p) (a_J p) (a_L p) (r_j q) (r_theta q) (image p b x) d' e' P1 P2 HJ D1 D2 Hl) as R. cbv zeta in R.
  rewrite (Z.mul_comm _ d'), (Z.mul_comm _ e'), <- Hd, <- He in R.
  replace (2 ^ Z.to_nat (a_J p))%R with (IZR (2 ^ a_J p)) by (rewrite <- (Z2Nat.id (a_J p)) at 1 by lia; now rewrite <- pow_IZR).
  rewrite !abs_IZR. exact R.
Qed.
Print Assumptions C108_translation.
(** A padded image of 20 x 24 pixels, J = 2, moved up by 2 rows: every path. *)
Example C108_translation_instance : forall l, List.length l = 480 ->
  let p := mk_params2 2 12 16 8 2 true "list" in
  exists s ps ps', ScatteringNumPy2D p = Ok s /\
    scattering2 np2 s (mk_nd Real [20; 24] l) = Ok (List2 ps) /\ scattering2 np2 s (mk_nd Real [20; 24] (translate 20 24 (-2) 0 l)) = Ok (List2 ps') /\
    forall k q q', nth_error ps k = Some q -> nth_error ps' k = Some q' ->
      (rsum 3 (fun u => rsum 4 (fun v => Cmod (px 4 (coef p 0 q') u v - px 4 (coef p 0 q) u v)%C ^ 2)) <=
       (3 / 2 * wavelets_gain 20 24 8 (r_j q) (r_theta q)) ^ 2 * energy2 20 24 l)%R.
Proof.
  intros l Hl p. exists (npobj p).
  assert (Hn : ScatteringNumPy2D p = Ok (npobj p)) by (unfold ScatteringNumPy2D; rewrite new2_eval by (cbn; lia); reflexivity).
  assert (Hx : batch2 p [] (mk_nd Real [20; 24] l)) by (repeat split; exact Hl).
  assert (Hx' : batch2 p [] (mk_nd Real [20; 24] (translate 20 24 (-2) 0 l))) by (repeat split; unfold nd_wf; cbn [nd_data nd_shape]; unfold translate; rewrite img_length; reflexivity).
  assert (Hi : forall y, List.length y = 480 -> image p 0 (mk_nd Real [20; 24] y) = y).
  { intros y Hy. unfold image, block. change (in_M p * in_N p) with 480. cbn [Nat.mul skipn nd_data]. apply firstn_all2. lia. }
  destruct (C108_translation p (npobj p) [] _ _ (-2)%Z 0%Z ltac:(cbn; lia) ltac:(cbn; lia) ltac:(cbn; lia) eq_refl eq_refl Hn Hx Hx') as (ps & ps' & E & E' & _ & H).
  { intros b Hb. cbn in Hb. replace b with 0 by lia. rewrite !Hi; [reflexivity|exact Hl|]. unfold translate. now rewrite img_length. }
  exists ps, ps'. split; [exact Hn|]. split; [exact E|]. split; [exact E'|]. intros k q q' Hq Hq'. destruct (H k q q' Hq Hq') as (_ & _ & HH).
  destruct (two_runs p ltac:(repeat split; cbn; lia) (npobj p) [] [] _ _ eq_refl Hn Hx Hx') as (ps1 & ps1' & E1 & E1' & _ & H').
  rewrite E in E1. injection E1 as <-. rewrite E' in E1'. injection E1' as <-. destruct (H' k q q' Hq Hq') as (_ & _ & _ & Hlab & _).
  assert (Hg : (grid_step (r_j q) | -2)%Z).
  { assert (G : forall j, (0 <= j < 2)%Z -> (2 ^ j | -2)%Z).
    { intros j Hj'. assert (j = 0 \/ j = 1)%Z as [-> | ->] by lia; [exists (-2)%Z|exists (-1)%Z]; reflexivity. }
    unfold grid_step. destruct Hlab as [(-> & _)|[(j & t & -> & _ & Hj & _)|(j1 & t1 & j2 & t2 & -> & _ & H1 & H2 & _)]]; [exists (-2)%Z; reflexivity|now apply G|].
    apply G. cbn in H2. lia. }
  specialize (HH 0 ltac:(cbn; lia) Hg (Z.divide_0_r _)). rewrite Hi in HH by exact Hl.
  change (out_M p) with 3 in HH. change (out_N p) with 4 in HH. change (in_M p) with 20 in HH. change (in_N p) with 24 in HH.
  change (padded_M p) with 20 in HH. change (padded_N p) with 24 in HH. change (Z.to_nat (a_J p)) with 2 in HH. change (Z.abs (-2)) with 2%Z in HH. change (Z.abs 0) with 0%Z in HH.
  replace (3 * (2 + 0) / 2 ^ 2)%R with (3 / 2)%R in HH by (cbn [pow]; field). exact HH.
Qed.
