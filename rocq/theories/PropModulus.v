(** C52: value and gradient of the stable modulus of the torch backends. *)
From Coq Require Import Reals ZArith List Bool Arith Lia Lra.
From Coquelicot Require Import Coquelicot.
From Verif Require Import Base BaseProofs NdArray NdProofs Backend ComplexOps Torch1d TorchGrad.
Import ListNotations.
Local Open Scope R_scope.
Local Open Scope res_scope.

Lemma pairs_length n : forall l, length l = (2 * n)%nat -> length (of_pairs l) = n.
Proof.
  induction n as [|n IH]; intros l H; [destruct l; [reflexivity|discriminate]|]. destruct l as [|a [|b l]]; cbn [length] in H; try lia.
  cbn [of_pairs length]. rewrite IH; lia.
Qed.
Lemma pairs_nth n : forall l i, length l = (2 * n)%nat -> (i < n)%nat -> nth i (of_pairs l) (0, 0) = (nth (2 * i) l 0, nth (2 * i + 1) l 0).
Proof.
  induction n as [|n IH]; intros l i H Hi; [lia|]. destruct l as [|a [|b l]]; cbn [length] in H; try lia. destruct i as [|i]; [reflexivity|].
  cbn [of_pairs nth]. rewrite IH by lia. replace (2 * S i)%nat with (S (S (2 * i))) by lia. reflexivity.
Qed.
Lemma bcast2_length l : length (bcast2 l) = (2 * length l)%nat.
Proof. unfold bcast2. induction l as [|a l IH]; cbn [flat_map app length]; [reflexivity|]. lia. Qed.
Lemma bcast2_nth l : forall i, nth (2 * i) (bcast2 l) 0 = nth i l 0 /\ nth (2 * i + 1) (bcast2 l) 0 = nth i l 0.
Proof.
  unfold bcast2. induction l as [|a l IH]; intros [|i]; cbn [flat_map app]; try (split; reflexivity).
  replace (2 * S i)%nat with (S (S (2 * i))) by lia. cbn [Nat.add nth]. apply IH.
Qed.
Lemma forward_Cmod a b : modulus_forward a b = Cmod (a, b).
Proof. unfold modulus_forward, Cmod. cbn [fst snd]. f_equal. ring. Qed.
Lemma out_nth x n i : length x = (2 * n)%nat -> (i < n)%nat -> nth i (modulus_out x) 0 = Cmod (nth (2 * i) x 0, nth (2 * i + 1) x 0).
Proof.
  intros H Hi. unfold modulus_out. rewrite (nth_indep _ 0 (modulus_forward (fst (0, 0)) (snd (0, 0)))) by (now rewrite map_length, (pairs_length n)).
  rewrite (map_nth (fun z : C => modulus_forward (fst z) (snd z))), (pairs_nth n) by assumption. apply forward_Cmod.
Qed.
Lemma back_nth x o g n k : length x = n -> length (bcast2 o) = n -> length (bcast2 g) = n -> (k < n)%nat ->
  nth k (modulus_backward x o g) None =
    (if Req_EM_T (nth k (bcast2 o) 0) 0 then Some 0 else fdiv (nth k x 0 * nth k (bcast2 g) 0) (nth k (bcast2 o) 0)).
Proof.
  intros Hx Ho Hg Hk. unfold modulus_backward.
  set (A := combine (combine x (bcast2 g)) (bcast2 o)). assert (LA : length A = n) by (unfold A; rewrite !combine_length; lia).
  set (F := fun e : R * R * R => let '(x, g, o) := e in fdiv (x * g) o). set (G := fun e : option R * R => let '(v, o) := e in if Req_EM_T o 0 then Some 0 else v).
  rewrite (nth_indep _ None (G (F (0, 0, 0), 0))) by (rewrite map_length, combine_length, map_length; lia).
  rewrite map_nth, combine_nth by (rewrite map_length; lia). rewrite map_nth. unfold A. rewrite !combine_nth by (rewrite ?combine_length; lia). reflexivity.
Qed.
Lemma back_length x o g n : length x = n -> length (bcast2 o) = n -> length (bcast2 g) = n -> length (modulus_backward x o g) = n.
Proof. intros. unfold modulus_backward. rewrite map_length, combine_length, map_length, !combine_length. lia. Qed.

(** Value: every entry of the result of modulus is the modulus of the complex number stored in its pair. *)
Theorem C52_modulus_value (x : tensor) pre : t_shape x = pre ++ [2%nat] -> length (t_data x) = (2 * prod pre)%nat -> t_contig x = true ->
  exists y, t_modulus x = Ok y /\ t_dtype y = t_dtype x /\ t_shape y = pre ++ [1%nat] /\ length (t_data y) = prod pre /\
  forall i, (i < prod pre)%nat ->
    nth i (t_data y) 0 = sqrt (nth (2 * i) (t_data x) 0 ^ 2 + nth (2 * i + 1) (t_data x) 0 ^ 2).
Proof.
  intros Hs Hl Hc. unfold t_modulus, t_complex_check, t_contiguous_check. rewrite Hs, split_last_snoc, Hc. cbn [bind Nat.eqb negb raise_if].
  eexists. split; [reflexivity|]. cbn [t_dtype t_shape t_data]. split; [reflexivity|]. split; [reflexivity|]. split; [rewrite map_length; now apply pairs_length|].
  intros i Hi. change (map _ (of_pairs (t_data x))) with (modulus_out (t_data x)). now rewrite (out_nth _ (prod pre)).
Qed.
Print Assumptions C52_modulus_value.

Lemma Cmod00 : Cmod (0, 0) = 0.
Proof. exact Cmod_0. Qed.
Lemma Cmod_pos a b : (a, b) <> (0, 0) -> 0 < Cmod (a, b).
Proof. intros H. destruct (Cmod_ge_0 (a, b)) as [K|K]; [exact K|]. contradiction H. now apply Cmod_eq_0. Qed.
Lemma Cmod_sqr a b : Cmod (a, b) * Cmod (a, b) = a * a + b * b.
Proof. unfold Cmod. cbn [fst snd]. rewrite sqrt_sqrt; [ring|]. pose proof (pow2_ge_0 a). pose proof (pow2_ge_0 b). lra. Qed.
Lemma Cmod_scal a b u v : a * u + b * v <= Cmod (a, b) * Cmod (u, v).
Proof.
  pose proof (Cmod_ge_0 (a, b)) as H1. pose proof (Cmod_ge_0 (u, v)) as H2. apply Rnot_lt_le. intros K.
  pose proof (Cmod_sqr a b) as E1. pose proof (Cmod_sqr u v) as E2. set (m := Cmod (a, b)) in *. set (k := Cmod (u, v)) in *.
  assert (Hk : 0 <= m * k) by now apply Rmult_le_pos.
  assert (Hq : (m * k) * (m * k) < (a * u + b * v) * (a * u + b * v)) by (apply Rmult_le_0_lt_compat; assumption).
  replace ((m * k) * (m * k)) with ((m * m) * (k * k)) in Hq by ring. rewrite E1, E2 in Hq.
  pose proof (Rle_0_sqr (a * v - b * u)) as Q. unfold Rsqr in Q. lra.
Qed.
(** First-order remainder of the modulus. *)
Lemma Cmod_remainder a b u v : (a, b) <> (0, 0) ->
  0 <= Cmod (u, v) - Cmod (a, b) - (a / Cmod (a, b) * (u - a) + b / Cmod (a, b) * (v - b)) <=
  ((u - a) * (u - a) + (v - b) * (v - b)) / (2 * Cmod (a, b)).
Proof.
  intros H. pose proof (Cmod_pos a b H) as Hm. pose proof (Cmod_scal a b u v) as CS. pose proof (Cmod_sqr a b) as E1. pose proof (Cmod_sqr u v) as E2.
  set (m := Cmod (a, b)) in *. set (k := Cmod (u, v)) in *.
  replace (k - m - (a / m * (u - a) + b / m * (v - b))) with ((k * m - (a * u + b * v)) / m + (a * a + b * b - m * m) / m) by (field; lra).
  rewrite <- E1. replace (m * m - m * m) with 0 by ring. replace (0 / m) with 0 by (field; lra). rewrite Rplus_0_r. split.
  - apply Rmult_le_pos; [lra|]. left. now apply Rinv_0_lt_compat.
  - apply (Rmult_le_reg_r (2 * m)); [lra|]. replace ((k * m - (a * u + b * v)) / m * (2 * m)) with (2 * (k * m - (a * u + b * v))) by (field; lra).
    replace (((u - a) * (u - a) + (v - b) * (v - b)) / (2 * m) * (2 * m)) with ((u - a) * (u - a) + (v - b) * (v - b)) by (field; lra).
    pose proof (Rle_0_sqr (k - m)) as Q. unfold Rsqr in Q. lra.
Qed.
Lemma Cmod_diff g a b : (a, b) <> (0, 0) -> differentiable_pt_lim (fun u v => g * Cmod (u, v)) a b (a * g / Cmod (a, b)) (b * g / Cmod (a, b)).
Proof.
  intros H eps. pose proof (Cmod_pos a b H) as Hm. set (e := eps * Cmod (a, b) / (1 + Rabs g)).
  assert (Hg : 0 < 1 + Rabs g) by (pose proof (Rabs_pos g); lra).
  assert (He : 0 < e). { unfold e. apply Rmult_lt_0_compat; [apply Rmult_lt_0_compat; [apply eps|exact Hm]|now apply Rinv_0_lt_compat]. }
  exists (mkposreal e He). cbn [pos]. intros u v Hu Hv. pose proof (Cmod_remainder a b u v H) as [B1 B2].
  set (M := Rmax (Rabs (u - a)) (Rabs (v - b))). set (m := Cmod (a, b)) in *.
  assert (HM : 0 <= M) by (eapply Rle_trans; [apply Rabs_pos|apply Rmax_l]).
  assert (HMe : M < e) by (apply Rmax_lub_lt; assumption).
  assert (S1 : (u - a) * (u - a) <= M * M). { change (Rsqr (u - a) <= M * M); rewrite Rsqr_abs; unfold Rsqr. apply Rmult_le_compat; try apply Rabs_pos; apply Rmax_l. }
  assert (S2 : (v - b) * (v - b) <= M * M). { change (Rsqr (v - b) <= M * M); rewrite Rsqr_abs; unfold Rsqr. apply Rmult_le_compat; try apply Rabs_pos; apply Rmax_r. }
  replace (g * Cmod (u, v) - g * m - (a * g / m * (u - a) + b * g / m * (v - b)))
    with (g * (Cmod (u, v) - m - (a / m * (u - a) + b / m * (v - b)))) by (field; lra).
  rewrite Rabs_mult, (Rabs_pos_eq (_ - _ - _)) by exact B1.
  apply Rle_trans with (Rabs g * (M * M / m)).
  - apply Rmult_le_compat_l; [apply Rabs_pos|]. eapply Rle_trans; [exact B2|]. apply (Rmult_le_reg_r (2 * m)); [lra|].
    replace (((u - a) * (u - a) + (v - b) * (v - b)) / (2 * m) * (2 * m)) with ((u - a) * (u - a) + (v - b) * (v - b)) by (field; lra).
    replace (M * M / m * (2 * m)) with (2 * (M * M)) by (field; lra). lra.
  - apply Rle_trans with ((1 + Rabs g) * (M * e / m)).
    + apply Rmult_le_compat; [apply Rabs_pos| |lra|].
      * apply Rmult_le_pos; [nra|]. left. now apply Rinv_0_lt_compat.
      * apply Rmult_le_compat_r; [left; now apply Rinv_0_lt_compat|]. apply Rmult_le_compat_l; lra.
    + unfold e. right. field. split; lra.
Qed.

(** Gradient: [x] holds [n] complex numbers, [g] the [n] incoming gradients.  The backward pass returns a finite number for
    each part of each complex number: exactly 0 where it is zero, and elsewhere the partial derivatives of the modulus
    scaled by the incoming gradient. *)
Theorem C52_modulus_gradient (x g : list R) n : length x = (2 * n)%nat -> length g = n ->
  let grad := modulus_backward x (modulus_out x) g in
  length grad = (2 * n)%nat /\ List.Forall (fun v => v <> None) grad /\
  forall i, (i < n)%nat ->
    let a := nth (2 * i) x 0 in let b := nth (2 * i + 1) x 0 in
    ((a, b) = (0, 0) -> nth (2 * i) grad None = Some 0 /\ nth (2 * i + 1) grad None = Some 0) /\
    ((a, b) <> (0, 0) -> exists da db, nth (2 * i) grad None = Some da /\ nth (2 * i + 1) grad None = Some db /\
       differentiable_pt_lim (fun u v => nth i g 0 * Cmod (u, v)) a b da db).
Proof.
  intros Hx Hg grad. assert (Lo : length (bcast2 (modulus_out x)) = (2 * n)%nat) by (rewrite bcast2_length; unfold modulus_out; now rewrite map_length, (pairs_length n)).
  assert (Lg : length (bcast2 g) = (2 * n)%nat) by now rewrite bcast2_length, Hg.
  assert (L : length grad = (2 * n)%nat) by now apply back_length.
  assert (E : forall i, (i < n)%nat ->
    let a := nth (2 * i) x 0 in let b := nth (2 * i + 1) x 0 in
    nth (2 * i) grad None = (if Req_EM_T (Cmod (a, b)) 0 then Some 0 else Some (a * nth i g 0 / Cmod (a, b))) /\
    nth (2 * i + 1) grad None = (if Req_EM_T (Cmod (a, b)) 0 then Some 0 else Some (b * nth i g 0 / Cmod (a, b)))).
  { intros i Hi a b. unfold grad. rewrite !(back_nth _ _ _ (2 * n)) by (assumption || lia). destruct (bcast2_nth (modulus_out x) i) as [-> ->].
    destruct (bcast2_nth g i) as [-> ->]. rewrite (out_nth x n i Hx Hi). fold a b. unfold fdiv. now destruct (Req_EM_T (Cmod (a, b)) 0). }
  split; [exact L|]. split.
  - apply Forall_forall. intros v Hv. apply (In_nth _ _ None) in Hv as (k & Hk & <-). rewrite L in Hk.
    pose proof (Nat.div_mod k 2 (Nat.neq_succ_0 1)) as D. pose proof (Nat.mod_upper_bound k 2 (Nat.neq_succ_0 1)) as U.
    destruct (E (k / 2)%nat) as [E1 E2]; [apply Nat.div_lt_upper_bound; lia|].
    assert (K : k = (2 * (k / 2))%nat \/ k = (2 * (k / 2) + 1)%nat) by lia. destruct K as [K|K]; rewrite K; [rewrite E1|rewrite E2];
      match goal with |- (if ?c then _ else _) <> _ => destruct c end; discriminate.
  - intros i Hi a b. destruct (E i Hi) as [E1 E2]. fold a b in E1, E2. rewrite E1, E2. split.
    + intros Z. rewrite Z, Cmod00. destruct (Req_EM_T 0 0) as [_|K]; [auto|now contradiction K].
    + intros Z. pose proof (Cmod_pos a b Z) as Hp. destruct (Req_EM_T (Cmod (a, b)) 0) as [K|_]; [lra|]. eexists _, _. split; [reflexivity|]. split; [reflexivity|].
      now apply Cmod_diff.
Qed.
Print Assumptions C52_modulus_gradient.

(** With a unit incoming gradient the result is a subgradient of the modulus at every point, zero included. *)
Theorem C52_modulus_subgradient (x g : list R) n i da db : length x = (2 * n)%nat -> length g = n -> (i < n)%nat -> nth i g 0 = 1 ->
  let a := nth (2 * i) x 0 in let b := nth (2 * i + 1) x 0 in
  nth (2 * i) (modulus_backward x (modulus_out x) g) None = Some da -> nth (2 * i + 1) (modulus_backward x (modulus_out x) g) None = Some db ->
  forall w : C, Cmod (a, b) + (da * (fst w - a) + db * (snd w - b)) <= Cmod w.
Proof.
  intros Hx Hg Hi H1 a b Ea Eb [u v]. cbn [fst snd]. destruct (C52_modulus_gradient x g n Hx Hg) as (_ & _ & G). specialize (G i Hi). cbv zeta in G. fold a b in G.
  destruct G as [G0 G1]. destruct (Ceq_dec (a, b) (0, 0)) as [Z|Z].
  - destruct (G0 Z) as [E1 E2]. rewrite E1 in Ea. rewrite E2 in Eb. injection Ea as <-. injection Eb as <-. rewrite Z, Cmod00. pose proof (Cmod_ge_0 (u, v)). lra.
  - destruct (G1 Z) as (da' & db' & E1 & E2 & D). rewrite E1 in Ea. rewrite E2 in Eb. injection Ea as ->. injection Eb as ->.
    pose proof (Cmod_diff (nth i g 0) a b Z) as D'. rewrite H1 in D, D'. destruct (differentiable_pt_lim_unique _ _ _ _ _ D) as [U1 U2].
    destruct (differentiable_pt_lim_unique _ _ _ _ _ D') as [V1 V2]. pose proof (Cmod_remainder a b u v Z) as [B _].
    pose proof (Cmod_pos a b Z) as Hm. replace da with (a / Cmod (a, b)) by (rewrite <- U1, V1; field; lra). replace db with (b / Cmod (a, b)) by (rewrite <- U2, V2; field; lra). lra.
Qed.
Print Assumptions C52_modulus_subgradient.

(** The numbers 3+4i and 0, with incoming gradients 10 and 7. *)
Example C52_instance : modulus_backward [3; 4; 0; 0] (modulus_out [3; 4; 0; 0]) [10; 7] = [Some 6; Some 8; Some 0; Some 0].
Proof.
  assert (E : modulus_out [3; 4; 0; 0] = [5; 0]).
  { unfold modulus_out. cbn [of_pairs map fst snd]. unfold modulus_forward. replace (3 * 3 + 4 * 4) with (5 * 5) by ring.
    rewrite sqrt_square by lra. replace (0 * 0 + 0 * 0) with 0 by ring. now rewrite sqrt_0. }
  rewrite E. unfold modulus_backward, fdiv. cbn [bcast2 flat_map app combine map].
  destruct (Req_EM_T 5 0) as [K|_]; [lra|]. destruct (Req_EM_T 0 0) as [_|K]; [|now contradiction K]. repeat f_equal; field.
Qed.
