(** Property C124: flattening the batch axes and restoring them. *)
From Coq Require Import String Reals ZArith List Bool Arith Lia.
From Coquelicot Require Import Complex.
From Verif Require Import Base BaseProofs NdArray Backend NdProofs ComplexOps Torch1d Tf1d Dft.
Import ListNotations.
Local Open Scope nat_scope.

Lemma trailing_app (a s : list nat) : s <> [] -> trailing (List.length s) (a ++ s) = s.
Proof.
  intros H. unfold trailing. destruct (List.length s) as [|k] eqn:E; [now apply length_zero_iff_nil in E|]. rewrite app_length, E.
  replace (List.length a + S k - S k) with (List.length a) by lia. rewrite skipn_app, skipn_all, Nat.sub_diag. reflexivity.
Qed.

(** C124: the batch axes are merged into one, a channel axis is inserted, the data are untouched, and reshape_output undoes it. *)
Theorem C124_round_trip : forall batch sig, sig <> [] -> prod sig <> 0 ->
  (forall x : nd C, nd_shape x = batch ++ sig -> exists y, np_reshape_input x sig = Ok y /\ nd_shape y = prod batch :: 1 :: sig /\ nd_data y = nd_data x /\ nd_dtype y = nd_dtype x /\
    np_reshape_output y batch (List.length sig) = Ok x) /\
  (forall x : tft C, nd_shape (tf_val x) = batch ++ sig -> exists y, tf_reshape_input x sig = Ok y /\ nd_shape (tf_val y) = prod batch :: 1 :: sig /\ nd_data (tf_val y) = nd_data (tf_val x) /\ tf_prec y = tf_prec x /\
    tf_reshape_output y batch (List.length sig) = Ok x) /\
  (forall x : tensor, t_shape x = batch ++ sig -> exists y, t_reshape_input x sig = Ok y /\ t_shape y = prod batch :: 1 :: sig /\ t_data y = t_data x /\ t_dtype y = t_dtype x /\
    t_reshape_output y batch (List.length sig) = Ok x).
Proof.
  intros batch sig Hs Hp. assert (P1 : prod (1 :: sig) = prod sig) by (change (prod (1 :: sig)) with (1 * prod sig); lia).
  assert (E0 : Nat.eqb (prod sig) 0 = false) by (now apply Nat.eqb_neq).
  assert (E1 : Nat.eqb (prod (batch ++ sig) mod prod sig) 0 = true) by (rewrite prod_app, Nat.mod_mul by exact Hp; reflexivity).
  assert (E2 : prod (batch ++ sig) / prod sig = prod batch) by (rewrite prod_app; now apply Nat.div_mul).
  assert (T : trailing (List.length sig) (prod batch :: 1 :: sig) = sig) by (apply (trailing_app [prod batch; 1]); exact Hs).
  assert (E3 : Nat.eqb (prod (batch ++ sig)) (prod (prod batch :: 1 :: sig)) = true) by (apply Nat.eqb_eq; rewrite prod_app; change (prod (prod batch :: 1 :: sig)) with (prod batch * (1 * prod sig)); lia).
  split; [|split].
  - intros [dt sh X] Hx. cbn in Hx. subst sh. unfold np_reshape_input, reshape_infer. cbn [nd_shape nd_dtype nd_data]. rewrite P1, E0, E1, E2. eexists. do 4 (split; [reflexivity|]).
    unfold np_reshape_output, reshape. cbn [nd_shape nd_dtype nd_data]. now rewrite T, E3.
  - intros [pr [dt sh X]] Hx. cbn in Hx. subst sh. unfold tf_reshape_input, reshape_infer. cbn [tf_val tf_prec nd_shape nd_dtype nd_data]. rewrite P1, E0, E1, E2. eexists. do 4 (split; [reflexivity|]).
    unfold tf_reshape_output, reshape. cbn [tf_val tf_prec nd_shape nd_dtype nd_data]. now rewrite T, E3.
  - intros [dt sh X ct] Hx. cbn in Hx. subst sh. unfold t_reshape_input. cbn [t_shape t_dtype t_data t_contig]. rewrite P1, E0, E1, E2. eexists. do 4 (split; [reflexivity|]).
    unfold t_reshape_output. cbn [t_shape t_dtype t_data t_contig]. now rewrite T, E3.
Qed.
Print Assumptions C124_round_trip.
(** A number of samples that the size of the signals does not divide is refused. *)
Theorem C124_refused : forall sig (x : nd C) (u : tft C) (t : tensor), prod sig <> 0 ->
  (prod (nd_shape x) mod prod sig <> 0 -> np_reshape_input x sig = Err ValueError) /\
  (prod (nd_shape (tf_val u)) mod prod sig <> 0 -> tf_reshape_input u sig = Err RuntimeError) /\
  (prod (t_shape t) mod prod sig <> 0 -> t_reshape_input t sig = Err RuntimeError).
Proof.
  intros sig x u t Hp. assert (P1 : prod (1 :: sig) = prod sig) by (change (prod (1 :: sig)) with (1 * prod sig); lia). assert (E0 : Nat.eqb (prod sig) 0 = false) by (now apply Nat.eqb_neq).
  split; [|split]; intros H; apply Nat.eqb_neq in H.
  - unfold np_reshape_input, reshape_infer. now rewrite P1, E0, H.
  - unfold tf_reshape_input, reshape_infer. now rewrite P1, E0, H.
  - unfold t_reshape_input. now rewrite P1, E0, H.
Qed.
Print Assumptions C124_refused.
(** A batch of 2 by 3 signals of 4 samples; 10 samples are not a batch of signals of 4. *)
Example C124_instance : let x := mk_nd Real [2; 3; 4] (map (fun i => RtoC (INR i)) (seq 0 24)) in
  (exists y, np_reshape_input x [4] = Ok y /\ nd_shape y = [6; 1; 4] /\ np_reshape_output y [2; 3] 1 = Ok x) /\
  np_reshape_input (mk_nd Real [10] (map (fun i => RtoC (INR i)) (seq 0 10))) [4] = Err ValueError.
Proof.
  intros x. split.
  - destruct (C124_round_trip [2; 3] [4] ltac:(discriminate) ltac:(cbn; lia)) as (H & _). destruct (H x eq_refl) as (y & E & Sh & _ & _ & R). exists y. split; [exact E|]. split; [exact Sh|exact R].
  - destruct (C124_refused [4] (mk_nd Real [10] (map (fun i => RtoC (INR i)) (seq 0 10))) (mk_tf F32 x) (mk_t F32 [] [] true) ltac:(cbn; lia)) as (H & _). apply H. cbn. lia.
Qed.
