(** Property C100: transposing the image transposes the coefficients of Scattering2D and permutes the orientations. *)
From Coq Require Import String Reals ZArith List Bool Arith Lia Lra.
From Coquelicot Require Import Coquelicot.
From Verif Require Import Base BaseProofs NdArray Backend NdProofs ComplexOps Dft Construct1d Utils1dProofs Rows1d StackProofs Backend2d Core2d FilterBank2d
  Frontend2d Images Rows2d Pad2d Eval2d Dft2 Value2d Conv2d Keys2d Path2d PropShapes2d PropValues2d Transpose2d.
Import ListNotations.
Local Open Scope Z_scope.

(** The same transform for images of N rows and M columns. *)
Definition swapped (p : params2) : params2 := mk_params2 (a_J p) (a_N p) (a_M p) (a_L p) (a_max_order p) (a_pre_pad p) (a_out_type p).

Lemma padded_transposed p im im' : valid2 p -> transposed (in_M p) (in_N p) im im' -> transposed (padded_M p) (padded_N p) (padded p im) (padded (swapped p) im').
Proof.
  intros Hp H. unfold padded, in_M, in_N in *. cbn [swapped a_pre_pad]. destruct (a_pre_pad p); [exact H|].
  change (padded_M (swapped p)) with (padded_N p). change (padded_N (swapped p)) with (padded_M p). cbn [swapped a_M a_N]. apply transposed_img.
  intros u v _ _. pose proof (pos2 p Hp). destruct H as (_ & _ & H). apply H; apply reflect_lt; lia.
Qed.
Lemma padded_real p im : valid2 p -> real_img (in_M p) (in_N p) im -> real_img (padded_M p) (padded_N p) (padded p im).
Proof.
  intros Hp H. unfold padded, in_M, in_N in *. destruct (a_pre_pad p); [exact H|]. intros u v Hu Hv. rewrite px_img by assumption. pose proof (pos2 p Hp). apply H; apply reflect_lt; lia.
Qed.
Lemma partner J L mo ns : (0 < L)%nat -> Z.of_nat L mod 2 = 0 -> In ns (indices2 J L mo) ->
  exists ns', In ns' (indices2 J L mo) /\ fst (fst (key_of L ns')) = fst (fst (key_of L ns)) /\ snd (key_of L ns') = map (turned (Z.of_nat L)) (snd (key_of L ns)).
Proof.
  intros HL Ev Hin. set (f := fun n => (n / L * L + Z.to_nat (turned (Z.of_nat L) (Z.of_nat (n mod L))))%nat).
  assert (Ht : forall n, (Z.to_nat (turned (Z.of_nat L) (Z.of_nat (n mod L))) < L)%nat) by (intros n; pose proof (turned_range (Z.of_nat L) ltac:(lia) (Z.of_nat (n mod L))); lia).
  assert (Fd : forall n, (f n / L = n / L)%nat) by (intros n; unfold f; rewrite Nat.div_add_l by lia; rewrite (Nat.div_small _ _ (Ht n)); lia).
  assert (Fm : forall n, Z.of_nat (f n mod L) = turned (Z.of_nat L) (Z.of_nat (n mod L))).
  { intros n. unfold f. rewrite Nat.add_comm, Nat.mod_add by lia. rewrite (Nat.mod_small _ _ (Ht n)). apply Z2Nat.id. apply turned_range. lia. }
  assert (Fl : forall n, (n < J * L)%nat -> (f n < J * L)%nat).
  { intros n Hn. assert (n / L < J)%nat by (apply Nat.div_lt_upper_bound; lia). pose proof (Ht n). unfold f. nia. }
  exists (map f ns). split; [|split].
  - unfold indices2 in *. destruct Hin as [<- |Hin]; [now left|]. right. apply in_app_iff in Hin. apply in_app_iff. destruct Hin as [Hin|Hin].
    + left. apply in_map_iff in Hin as (n & <- & Hn). apply in_map_iff. exists (f n). split; [reflexivity|]. apply in_seq in Hn. apply in_seq. pose proof (Fl n). lia.
    + right. destruct (mo <? 2); [exact Hin|]. apply second_spec in Hin as (n1 & n2 & -> & H1 & H2 & H3). apply second_spec. exists (f n1), (f n2). rewrite !Fd. repeat split; auto.
  - cbn [key_of fst]. rewrite map_map. apply map_ext. intros n. now rewrite Fd.
  - cbn [key_of snd]. rewrite !map_map. apply map_ext. intros n. apply Fm.
Qed.

(** Missing from the full claim: second-order coefficients with j1 >= 1 and an orientation theta2 > L/2 - 2, whose filter at the resolution
    of the first layer keeps the frequency -m/2 and not m/2 (L odd is not covered either: the orientations are then not stable under transposition). *)
Theorem C100_transposition_partial : forall p s s' pre x x', 1 <= a_J p -> 0 < a_L p -> a_L p mod 2 = 0 -> 2 ^ a_J p <= a_M p -> 2 ^ a_J p <= a_N p ->
  a_out_type p = "list"%string -> ScatteringNumPy2D p = Ok s -> ScatteringNumPy2D (swapped p) = Ok s' ->
  batch2 p pre x -> batch2 (swapped p) pre x' -> (forall n, Im (at_ (nd_data x) n) = 0%R) ->
  (forall b u v, (b < prod pre)%nat -> (u < in_M p)%nat -> (v < in_N p)%nat -> px (in_M p) (image (swapped p) b x') v u = px (in_N p) (image p b x) u v) ->
  exists ps ps', scattering2 np2 s x = Ok (List2 ps) /\ scattering2 np2 s' x' = Ok (List2 ps') /\
    (* paths and their partners *)
    (forall q, In q ps -> exists q', In q' ps' /\ r_j q' = r_j q /\ r_theta q' = map (fun t => (a_L p / 2 - 2 - t) mod a_L p) (r_theta q)) /\
    forall q q', In q ps -> In q' ps' -> r_j q' = r_j q -> r_theta q' = map (fun t => (a_L p / 2 - 2 - t) mod a_L p) (r_theta q) ->
      (forall j1 j2 t1 t2, r_j q = [j1; j2] -> r_theta q = [t1; t2] -> j1 = 0 \/ t2 <= a_L p / 2 - 2) ->
      forall b u v, (b < prod pre)%nat -> (u < out_M p)%nat -> (v < out_N p)%nat -> px (out_M p) (coef (swapped p) b q') v u = px (out_N p) (coef p b q) u v.
Proof.
  intros p s s' pre x x' HJ HL Ev HM HN Ho Hs Hs' Hx Hx' Hre Htr. assert (Hp : valid2 p) by (split; [|split]; assumption). assert (Hp' : valid2 (swapped p)) by (split; [|split]; assumption).
  assert (HL1 : (0 < Z.to_nat (a_L p))%nat) by lia. assert (HL2 : Z.of_nat (Z.to_nat (a_L p)) mod 2 = 0) by (rewrite Z2Nat.id by lia; exact Ev).
  apply (numpy_new p Hp) in Hs. apply (numpy_new _ Hp') in Hs'. subst s s'.
  assert (LI : forall b, (b < prod pre)%nat -> transposed (in_M p) (in_N p) (image p b x) (image (swapped p) b x')).
  { intros b Hb. split; [now apply (image_length p pre)|]. split; [exact (image_length (swapped p) pre b x' Hx' Hb)|]. intros u v Hu Hv. now apply Htr. }
  assert (RI : forall b, (b < prod pre)%nat -> real_img (in_M p) (in_N p) (image p b x)).
  { intros b Hb u v Hu Hv. unfold image, px, iat, block.
    assert (N1 : forall (l : list C) i n, (i < n)%nat -> nth i (firstn n l) (RtoC 0) = nth i l (RtoC 0)).
    { intros l. induction l as [|a l IH]; intros i n Hi; [now rewrite firstn_nil|]. destruct n; [lia|]. destruct i; [reflexivity|]. cbn [firstn nth]. apply IH. lia. }
    assert (N2 : forall (l : list C) k i, nth i (skipn k l) (RtoC 0) = nth (k + i) l (RtoC 0)).
    { intros l. induction l as [|a l IH]; intros [|k] i; try reflexivity; [cbn; now destruct i|]. cbn [skipn plus nth]. apply IH. }
    rewrite N1 by now apply pos_lt. rewrite N2. apply Hre. }
  destruct (paths_of p pre x Hp Hx) as (ims & -> & Hi & K & H). destruct (paths_of (swapped p) pre x' Hp' Hx') as (ims' & -> & Hi' & K' & H').
  exists (outs2 p pre (padded_ims p ims)), (outs2 (swapped p) pre (padded_ims (swapped p) ims')). split; [now apply numpy_list|]. split; [now apply numpy_list|]. split.
  - intros q Hq. pose proof (in_map key2 _ _ Hq) as A. rewrite K in A. apply in_map_iff in A as (ns & Ens & Hns).
    destruct (partner (Z.to_nat (a_J p)) (Z.to_nat (a_L p)) (a_max_order p) ns HL1 HL2 Hns) as (ns' & Hns' & E1 & E2). pose proof (in_map (key_of (Z.to_nat (a_L p))) _ _ Hns') as A.
    change (In (key_of (Z.to_nat (a_L (swapped p))) ns') (map (key_of (Z.to_nat (a_L (swapped p)))) (indices2 (Z.to_nat (a_J (swapped p))) (Z.to_nat (a_L (swapped p))) (a_max_order (swapped p))))) in A.
    rewrite <- K' in A. apply in_map_iff in A as (q' & Eq' & Hq'). change (a_L (swapped p)) with (a_L p) in Eq'. exists q'. split; [exact Hq'|]. rewrite Z2Nat.id in E2 by lia.
    rewrite Ens, <- Eq' in E1, E2. split; [exact E1|exact E2].
  - intros q q' Hq Hq' Ej Et He b u v Hb Hu Hv. destruct (H q Hq) as (Hl & _ & _ & _ & B). destruct (H' q' Hq') as (_ & _ & _ & _ & B'). rewrite B by exact Hb. rewrite (B' b Hb).
    rewrite Ej, Et. change (padded_M (swapped p)) with (padded_N p). change (padded_N (swapped p)) with (padded_M p). change (a_J (swapped p)) with (a_J p). change (a_L (swapped p)) with (a_L p).
    destruct (dims2 p Hp) as (P1 & P2 & D1 & D2). destruct (sizes2 p Hp) as [S1 S2].
    destruct (value2_transposed (padded_M p) (padded_N p) (a_J p) (a_L p) P1 P2 HL Ev D1 D2 (r_j q) (r_theta q) _ _ Hl He (padded_transposed p _ _ Hp (LI b Hb)) (padded_real p _ Hp (RI b Hb))) as (_ & _ & V).
    change (padded_M p) with (Mp p) in V |- *. change (padded_N p) with (Np p) in V |- *. change (P (a_J p)) with (p2 (a_J p)) in V. rewrite S1, S2 in V. now apply V.
Qed.
Print Assumptions C100_transposition_partial.
(** An image of 8 x 12 pixels and its transpose, J = 2, L = 8: every path has its partner, here for (j, theta) = (0, 1), (1, 6). *)
Example C100_instance : forall l : list C, List.length l = 96%nat -> (forall n, Im (at_ l n) = 0%R) ->
  exists s s' ps ps', ScatteringNumPy2D (mk_params2 2 8 12 8 2 false "list") = Ok s /\ ScatteringNumPy2D (mk_params2 2 12 8 8 2 false "list") = Ok s' /\
    scattering2 np2 s (mk_nd Real [8; 12]%nat l) = Ok (List2 ps) /\ scattering2 np2 s' (mk_nd Real [12; 8]%nat (img 12 8 (fun v u => px 12 l u v))) = Ok (List2 ps') /\
    forall q q', In q ps -> In q' ps' -> r_j q = [0; 1] -> r_theta q = [1; 6] -> r_j q' = [0; 1] -> r_theta q' = [1; 4] ->
      px 2 (coef (mk_params2 2 12 8 8 2 false "list") 0 q') 2 1 = px 3 (coef (mk_params2 2 8 12 8 2 false "list") 0 q) 1 2.
Proof.
  intros l Hl Hre. set (p := mk_params2 2 8 12 8 2 false "list"). exists (npobj p), (npobj (swapped p)).
  assert (Hn : ScatteringNumPy2D p = Ok (npobj p)) by (unfold ScatteringNumPy2D; rewrite new2_eval by (cbn; lia); reflexivity).
  assert (Hn' : ScatteringNumPy2D (swapped p) = Ok (npobj (swapped p))) by (unfold ScatteringNumPy2D; rewrite new2_eval by (cbn; lia); reflexivity).
  destruct (C100_transposition_partial p (npobj p) (npobj (swapped p)) [] (mk_nd Real [8; 12]%nat l) (mk_nd Real [12; 8]%nat (img 12 8 (fun v u => px 12 l u v)))) as (ps & ps' & E & E' & _ & H);
    try (cbn; lia); try reflexivity; try assumption.
  - repeat split. exact Hl.
  - split; [|split; reflexivity]. unfold nd_wf. cbn [nd_data nd_shape]. rewrite img_length. reflexivity.
  - intros b u v Hb Hu Hv. cbn in Hb. replace b with 0%nat by lia. change (in_M p) with 8%nat in *. change (in_N p) with 12%nat in *.
    unfold image, block. change (in_M p * in_N p)%nat with 96%nat. change (in_M (swapped p) * in_N (swapped p))%nat with 96%nat. cbn [Nat.mul skipn nd_data].
    rewrite (firstn_all2 l) by lia. rewrite firstn_all2 by (unfold C; rewrite img_length; cbn; lia). now rewrite px_img.
  - exists ps, ps'. split; [exact Hn|]. split; [exact Hn'|]. split; [exact E|]. split; [exact E'|]. intros q q' Hq Hq' A1 A2 A3 A4.
    apply (H q q' Hq Hq'); try (cbn; lia); try congruence.
    + rewrite A4, A2. reflexivity.
    + intros j1 j2 t1 t2 B1 _. left. congruence.
Qed.
