(** Property C112: turning a padded image by a half-turn turns the coefficients of Scattering2D. *)
From Coq Require Import String Reals ZArith List Bool Arith Lia Lra.
From Coquelicot Require Import Coquelicot.
From Verif Require Import Base BaseProofs NdArray Backend NdProofs ComplexOps Dft Construct1d Utils1dProofs Rows1d StackProofs Backend2d Core2d FilterBank2d
  Frontend2d Images Rows2d Pad2d Eval2d Dft2 Value2d Conv2d Keys2d Path2d PropShapes2d PropValues2d Transpose2d Turn2d.
Import ListNotations.
Local Open Scope Z_scope.

Lemma real_image p pre b x : batch2 p pre x -> (forall n, Im (at_ (nd_data x) n) = 0%R) -> real_img (in_M p) (in_N p) (image p b x).
Proof.
  intros Hx Hre u v Hu Hv. unfold image, px, iat, block.
  assert (N1 : forall (l : list C) i n, (i < n)%nat -> nth i (firstn n l) (RtoC 0) = nth i l (RtoC 0)).
  { intros l. induction l as [|a l IH]; intros i n Hi; [now rewrite firstn_nil|]. destruct n; [lia|]. destruct i; [reflexivity|]. cbn [firstn nth]. apply IH. lia. }
  assert (N2 : forall (l : list C) k i, nth i (skipn k l) (RtoC 0) = nth (k + i) l (RtoC 0)).
  { intros l. induction l as [|a l IH]; intros [|k] i; try reflexivity; [cbn; now destruct i|]. cbn [skipn plus nth]. apply IH. }
  rewrite N1 by now apply pos_lt. rewrite N2. apply Hre.
Qed.
(** The image turned by a half-turn: pixel (u, v) is read at (-u, -v), circularly. *)
Theorem C112_half_turn : forall p s pre x x', 1 <= a_J p -> 2 ^ a_J p <= a_M p -> 2 ^ a_J p <= a_N p -> a_out_type p = "list"%string -> a_pre_pad p = true ->
  ScatteringNumPy2D p = Ok s -> batch2 p pre x -> batch2 p pre x' -> (forall n, Im (at_ (nd_data x) n) = 0%R) ->
  (forall b u v, (b < prod pre)%nat -> (u < in_M p)%nat -> (v < in_N p)%nat ->
     px (in_N p) (image p b x') u v = px (in_N p) (image p b x) (if Nat.eqb u 0 then 0%nat else (in_M p - u)%nat) (if Nat.eqb v 0 then 0%nat else (in_N p - v)%nat)) ->
  exists ps ps', scattering2 np2 s x = Ok (List2 ps) /\ scattering2 np2 s x' = Ok (List2 ps') /\ List.length ps = List.length ps' /\
    forall k q q', nth_error ps k = Some q -> nth_error ps' k = Some q' -> r_j q' = r_j q /\ r_theta q' = r_theta q /\
      forall b u v, (b < prod pre)%nat -> (1 <= u < out_M p)%nat -> (1 <= v < out_N p)%nat ->
        px (out_N p) (coef p b q') u v = px (out_N p) (coef p b q) (out_M p - u) (out_N p - v).
Proof.
  intros p s pre x x' HJ HM HN Ho Hpp Hs Hx Hx' Hre Htr. assert (Hp : valid2 p) by (split; [|split]; assumption).
  destruct (two_runs p Hp s pre pre x x' Ho Hs Hx Hx') as (ps & ps' & E & E' & EL & H). exists ps, ps'. split; [exact E|]. split; [exact E'|]. split; [exact EL|].
  intros k q q' Hq Hq'. destruct (H k q q' Hq Hq') as (A1 & A2 & A3 & Hl & B & B'). split; [congruence|]. split; [congruence|]. intros b u v Hb Hu Hv.
  rewrite B, B' by exact Hb. pose proof (image_length p pre b x Hx Hb) as HI. pose proof (image_length p pre b x' Hx' Hb) as HI'. pose proof (real_image p pre b x Hx Hre) as HR.
  assert (Op : opposite (in_M p) (in_N p) (image p b x) (image p b x')).
  { split; [exact HI|]. split; [exact HI'|]. intros i j Hi Hj. rewrite Htr by assumption.
    assert (EQ : forall n a, (a < n)%nat -> (if Nat.eqb a 0 then 0%nat else (n - a)%nat) = ((n - a) mod n)%nat).
    { intros n [|a] Ha; cbn [Nat.eqb]; [rewrite Nat.sub_0_r, Nat.mod_same by lia; reflexivity|]. symmetry. apply Nat.mod_small. lia. }
    now rewrite !EQ by assumption. }
  unfold padded. rewrite Hpp. unfold in_M, in_N in *. rewrite Hpp in *.
  destruct (dims2 p Hp) as (P1 & P2 & D1 & D2). destruct (sizes2 p Hp) as [S1 S2].
  change (padded_M p) with (Mp p) in *. change (padded_N p) with (Np p) in *. change (out_M p) with (m2 p) in *. change (out_N p) with (n2 p) in *.
  pose proof (value2_turned (Mp p) (Np p) (a_J p) (a_L p) P1 P2 D1 D2 (r_j q) (r_theta q) (image p b x) (image p b x') Hl ltac:(lia) Op HR) as R.
  change (P (a_J p)) with (p2 (a_J p)) in R. rewrite S1, S2 in R. now apply R.
Qed.
Print Assumptions C112_half_turn.
(** A padded image of 20 x 24 pixels turned by a half-turn: 3 x 4 coefficients per path, sample (1, 3) goes to (2, 1). *)
Example C112_instance : forall l : list C, List.length l = 480%nat -> (forall n, Im (at_ l n) = 0%R) ->
  exists s ps ps', ScatteringNumPy2D (mk_params2 2 12 16 8 2 true "list") = Ok s /\ scattering2 np2 s (mk_nd Real [20; 24]%nat l) = Ok (List2 ps) /\
    scattering2 np2 s (mk_nd Real [20; 24]%nat (img 20 24 (fun u v => px 24 l (if Nat.eqb u 0 then 0 else 20 - u) (if Nat.eqb v 0 then 0 else 24 - v))))%nat = Ok (List2 ps') /\
    forall k q q', nth_error ps k = Some q -> nth_error ps' k = Some q' ->
      px 4 (coef (mk_params2 2 12 16 8 2 true "list") 0 q') 1 3 = px 4 (coef (mk_params2 2 12 16 8 2 true "list") 0 q) 2 1.
Proof.
  intros l Hl Hre. set (p := mk_params2 2 12 16 8 2 true "list"). exists (npobj p).
  assert (Hn : ScatteringNumPy2D p = Ok (npobj p)) by (unfold ScatteringNumPy2D; rewrite new2_eval by (cbn; lia); reflexivity).
  set (l' := img 20 24 _).
  assert (Hx : batch2 p [] (mk_nd Real [20; 24]%nat l)) by (repeat split; exact Hl).
  assert (Hx' : batch2 p [] (mk_nd Real [20; 24]%nat l')) by (repeat split; unfold nd_wf; cbn [nd_data nd_shape]; unfold l'; rewrite img_length; reflexivity).
  destruct (C112_half_turn p (npobj p) [] _ _ ltac:(cbn; lia) ltac:(cbn; lia) ltac:(cbn; lia) eq_refl eq_refl Hn Hx Hx' Hre) as (ps & ps' & E & E' & _ & H).
  { intros b u v Hb Hu Hv. cbn in Hb. replace b with 0%nat by lia. unfold image, block. change (in_M p * in_N p)%nat with 480%nat. cbn [Nat.mul skipn nd_data].
    change (in_M p) with 20%nat in *. change (in_N p) with 24%nat in *. rewrite (firstn_all2 l) by lia. rewrite firstn_all2 by (unfold C, l'; rewrite img_length; cbn; lia). unfold l'. now rewrite px_img. }
  exists ps, ps'. split; [exact Hn|]. split; [exact E|]. split; [exact E'|]. intros k q q' Hq Hq'. destruct (H k q q' Hq Hq') as (_ & _ & HH).
  exact (HH 0%nat 1%nat 3%nat ltac:(cbn; lia) ltac:(cbn; lia) ltac:(cbn; lia)).
Qed.
