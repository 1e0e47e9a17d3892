(** Property C125: the pointwise product of a batch and a filter. *)
From Coq Require Import String Reals ZArith List Bool Arith Lia.
From Coquelicot Require Import Complex.
From Verif Require Import Base BaseProofs NdArray Backend NdProofs StackProofs ComplexOps Torch1d Tf1d Dft PropPadFreq PropReshape.
Import ListNotations.
Local Open Scope nat_scope.

Lemma product_at B s (f X : list C) : List.length X = B * s -> List.length f = s ->
  let Y := concat (map (mul_row complex_ops f) (chunks B s X)) in
  List.length Y = B * s /\ forall b q, b < B -> q < s -> nth (b * s + q) Y (RtoC 0) = Cmult (nth (b * s + q) X (RtoC 0)) (nth q f (RtoC 0)).
Proof.
  intros HX Hf Y. destruct (chunks_ok B s X HX) as (H1 & H2 & H3).
  assert (F : List.Forall (fun w => List.length w = s) (map (mul_row complex_ops f) (chunks B s X))).
  { rewrite Forall_map. eapply Forall_impl; [|exact H2]. intros w Hw. cbv beta in *. unfold mul_row. rewrite map_length, combine_length, Hw, Hf. lia. }
  split; [unfold Y; rewrite (length_rows _ _ F), map_length, H1; reflexivity|]. intros b q Hb Hq. unfold Y.
  assert (Lw : List.length (nth b (chunks B s X) []) = s) by (rewrite Forall_forall in H2; apply H2, nth_In; lia).
  rewrite nth_concat_const by (try exact F; exact Hq). rewrite (nth_map_any _ _ _ _ []) by lia. unfold mul_row.
  rewrite (nth_map_any _ _ _ _ (RtoC 0, RtoC 0)) by (rewrite combine_length, Lw, Hf; lia). rewrite combine_nth by lia. cbn [fst snd complex_ops o_mul].
  f_equal. rewrite <- H3 at 2. symmetry. now apply nth_concat_const.
Qed.

(** C125: every entry is multiplied by the entry of the filter at the same position, with NumPy and TensorFlow. *)
Theorem C125_product : forall pre s (f : nd C), s <> [] -> nd_wf f -> nd_shape f = s -> nd_dtype f = Real \/ nd_dtype f = Complex ->
  (forall x : nd C, nd_wf x -> nd_shape x = pre ++ s -> nd_dtype x = Complex -> exists y, np_cdgmm complex_ops x f = Ok y /\ nd_shape y = nd_shape x /\ nd_dtype y = Complex /\ nd_wf y /\
    forall b q, b < prod pre -> q < prod s -> nth (b * prod s + q) (nd_data y) (RtoC 0) = Cmult (nth (b * prod s + q) (nd_data x) (RtoC 0)) (nth q (nd_data f) (RtoC 0))) /\
  (forall x : tft C, nd_wf (tf_val x) -> nd_shape (tf_val x) = pre ++ s -> nd_dtype (tf_val x) = Complex -> exists y, tf_cdgmm complex_ops x f = Ok y /\ nd_shape (tf_val y) = nd_shape (tf_val x) /\
    nd_dtype (tf_val y) = Complex /\ tf_prec y = tf_prec x /\ nd_wf (tf_val y) /\
    forall b q, b < prod pre -> q < prod s -> nth (b * prod s + q) (nd_data (tf_val y)) (RtoC 0) = Cmult (nth (b * prod s + q) (nd_data (tf_val x)) (RtoC 0)) (nth q (nd_data f) (RtoC 0))).
Proof.
  intros pre s f Hs Hwf Hf Hd.
  assert (D : negb (is_complex f) && negb (is_real f) = false) by (unfold is_complex, is_real; destruct Hd as [-> | ->]; reflexivity).
  assert (T : trailing (List.length s) (pre ++ s) = s) by (now apply trailing_app).
  assert (Fp : firstn (List.length (pre ++ s) - List.length s) (pre ++ s) = pre).
  { rewrite app_length. replace (List.length pre + List.length s - List.length s) with (List.length pre) by lia. rewrite firstn_app, Nat.sub_diag, firstn_all. cbn. apply app_nil_r. }
  unfold nd_wf in Hwf. rewrite Hf in Hwf. split.
  - intros x Hw Hx Hc. unfold np_cdgmm. assert (Ec : is_complex x = true) by (unfold is_complex; now rewrite Hc). rewrite Ec, Hf, Hx, T, D, Fp. cbn [negb].
    destruct (list_eq_dec Nat.eq_dec s s) as [_|N]; [|congruence]. unfold nd_wf in Hw. rewrite Hx, prod_app in Hw. destruct (product_at (prod pre) (prod s) (nd_data f) (nd_data x) Hw Hwf) as (L & V).
    eexists. split; [reflexivity|]. split; [reflexivity|]. split; [reflexivity|]. split; [|exact V]. unfold nd_wf. cbn [nd_shape nd_data]. rewrite L, prod_app. reflexivity.
  - intros x Hw Hx Hc. unfold tf_cdgmm. assert (Ec : is_complex (tf_val x) = true) by (unfold is_complex; now rewrite Hc). rewrite Ec, Hf, Hx, T, D. cbv zeta. rewrite Fp. cbn [negb].
    destruct (list_eq_dec Nat.eq_dec s s) as [_|N]; [|congruence]. unfold nd_wf in Hw. rewrite Hx, prod_app in Hw. destruct (product_at (prod pre) (prod s) (nd_data f) (nd_data (tf_val x)) Hw Hwf) as (L & V).
    eexists. split; [reflexivity|]. split; [reflexivity|]. split; [reflexivity|]. split; [reflexivity|]. split; [|exact V]. unfold nd_wf. cbn [tf_val nd_shape nd_data]. rewrite L, prod_app. reflexivity.
Qed.
Print Assumptions C125_product.
(** A first argument that is not complex raises TypeError; one that does not end with the axes of the filter raises RuntimeError; a filter neither real nor complex
    raises TypeError. *)
Theorem C125_errors : forall (x f : nd C) d, nd_shape f <> [] ->
  (nd_dtype x <> Complex -> np_cdgmm complex_ops x f = Err TypeError /\ tf_cdgmm complex_ops (mk_tf d x) f = Err TypeError) /\
  (nd_dtype x = Complex -> (~ exists pre, nd_shape x = pre ++ nd_shape f) -> np_cdgmm complex_ops x f = Err RuntimeError /\ tf_cdgmm complex_ops (mk_tf d x) f = Err RuntimeError) /\
  (nd_dtype x = Complex -> (exists pre, nd_shape x = pre ++ nd_shape f) -> nd_dtype f = OtherT -> np_cdgmm complex_ops x f = Err TypeError /\ tf_cdgmm complex_ops (mk_tf d x) f = Err TypeError).
Proof.
  intros x f d Hf. unfold np_cdgmm, tf_cdgmm. cbn [tf_val]. split; [|split].
  - intros H. assert (E : is_complex x = false) by (unfold is_complex; destruct (nd_dtype x); congruence). rewrite E. auto.
  - intros H N. assert (E : is_complex x = true) by (unfold is_complex; now rewrite H). rewrite E. cbn [negb].
    destruct (list_eq_dec Nat.eq_dec _ (nd_shape f)) as [Q|Q]; [|auto]. exfalso. apply N. unfold trailing in Q. destruct (List.length (nd_shape f)) as [|k] eqn:L; [now apply length_zero_iff_nil in L|].
    exists (firstn (List.length (nd_shape x) - S k) (nd_shape x)). rewrite <- Q. symmetry. apply firstn_skipn.
  - intros H (pre & Q) Hd. assert (E : is_complex x = true) by (unfold is_complex; now rewrite H). rewrite E, Q, trailing_app by exact Hf. cbn [negb].
    destruct (list_eq_dec Nat.eq_dec (nd_shape f) (nd_shape f)) as [_|N]; [|congruence]. unfold is_complex, is_real. rewrite Hd. auto.
Qed.
Print Assumptions C125_errors.
(** Two complex signals of 2 samples and a real filter; a filter of 3 samples is refused. *)
Example C125_instance : let x := mk_nd Complex [2; 2] (map (fun i => (INR i, 1%R)) (seq 0 4)) in
  (exists y, np_cdgmm complex_ops x (mk_nd Real [2] [RtoC 5; RtoC 7]) = Ok y /\ nth 3 (nd_data y) (RtoC 0) = Cmult (INR 3, 1%R) (RtoC 7)) /\
  np_cdgmm complex_ops x (mk_nd Real [3] [RtoC 5; RtoC 7; RtoC 1]) = Err RuntimeError.
Proof.
  intros x. split.
  - destruct (C125_product [2] [2] (mk_nd Real [2] [RtoC 5; RtoC 7]) ltac:(discriminate) eq_refl eq_refl (or_introl eq_refl)) as (H & _).
    destruct (H x eq_refl eq_refl eq_refl) as (y & E & _ & _ & _ & V). exists y. split; [exact E|]. exact (V 1 1 ltac:(cbn; lia) ltac:(cbn; lia)).
  - destruct (C125_errors x (mk_nd Real [3] [RtoC 5; RtoC 7; RtoC 1]) F32 ltac:(discriminate)) as (_ & H & _). apply H; [reflexivity|]. intros (pre & Q). cbn in Q.
    destruct pre as [|a [|b [|c pre]]]; cbn in Q; try discriminate.
Qed.

(** PyTorch: the last axis holds the real and imaginary parts. *)
Lemma of_pairs_at l n : List.length l = n * 2 -> List.length (of_pairs l) = n /\ forall q, q < n -> nth q (of_pairs l) (RtoC 0) = (nth (q * 2) l 0%R, nth (q * 2 + 1) l 0%R).
Proof.
  revert l. induction n as [|n IH]; intros l H.
  - destruct l; [|discriminate]. split; [reflexivity|]. intros q Hq. lia.
  - destruct l as [|a [|b l]]; try (cbn in H; lia). destruct (IH l ltac:(cbn in H; lia)) as (L & V). cbn [of_pairs List.length]. split; [now rewrite L|].
    intros [|q] Hq; [reflexivity|]. cbn [nth]. rewrite V by lia. reflexivity.
Qed.
Lemma flat_map_at {A B} (g : A -> list B) c l q e d z : (forall a, List.length (g a) = c) -> q < List.length l -> e < c -> nth (q * c + e) (flat_map g l) d = nth e (g (nth q l z)) d.
Proof.
  intros Hg Hq He. rewrite flat_map_concat_map. rewrite nth_concat_const; [|rewrite Forall_map; apply Forall_forall; intros; apply Hg|exact He]. now rewrite (nth_map_any _ _ _ _ z).
Qed.
(** Complex number [q] of row-major pairs. *)
Definition pair_at (q : nat) (l : list R) : C := (nth (q * 2) l 0%R, nth (q * 2 + 1) l 0%R).
Lemma torch_product_at (g : list R -> list R) (h : nat -> C) B s X : List.length X = B * (s * 2) -> (forall w, List.length w = s * 2 -> List.length (g w) = s * 2) ->
  (forall w q, List.length w = s * 2 -> q < s -> pair_at q (g w) = Cmult (pair_at q w) (h q)) ->
  let Y := concat (map g (chunks B (s * 2) X)) in
  List.length Y = B * (s * 2) /\ forall b q, b < B -> q < s -> pair_at (b * s + q) Y = Cmult (pair_at (b * s + q) X) (h q).
Proof.
  intros HX Hl Hv Y. destruct (chunks_ok B (s * 2) X HX) as (H1 & H2 & H3).
  assert (F : List.Forall (fun w => List.length w = s * 2) (map g (chunks B (s * 2) X))).
  { rewrite Forall_map. eapply Forall_impl; [|exact H2]. intros w Hw. now apply Hl. }
  split; [unfold Y; rewrite (length_rows _ _ F), map_length, H1; reflexivity|]. intros b q Hb Hq.
  assert (Lw : List.length (nth b (chunks B (s * 2) X) []) = s * 2) by (rewrite Forall_forall in H2; apply H2, nth_In; lia).
  assert (E : forall Z, List.Forall (fun w => List.length w = s * 2) Z -> pair_at (b * s + q) (concat Z) = pair_at q (nth b Z [])).
  { intros Z FZ. unfold pair_at. replace ((b * s + q) * 2) with (b * (s * 2) + q * 2) by lia. replace (b * (s * 2) + q * 2 + 1) with (b * (s * 2) + (q * 2 + 1)) by lia.
    rewrite !nth_concat_const by (try exact FZ; lia). reflexivity. }
  unfold Y. rewrite E by exact F. rewrite (nth_map_any _ _ _ _ []) by lia. rewrite Hv by assumption. f_equal. rewrite <- H3 at 2. symmetry. now apply E.
Qed.
Theorem C125_torch : forall pre s (x f : tensor) c, (c = 1 \/ c = 2) -> t_shape x = (pre ++ s) ++ [2] -> t_shape f = s ++ [c] ->
  List.length (t_data x) = prod (t_shape x) -> List.length (t_data f) = prod (t_shape f) -> t_contig x = true -> t_contig f = true ->
  (t_dtype x <> t_dtype f -> t_cdgmm x f = Err TypeError) /\
  (t_dtype x = t_dtype f -> exists y, t_cdgmm x f = Ok y /\ t_shape y = t_shape x /\ t_dtype y = t_dtype x /\ List.length (t_data y) = prod (t_shape y) /\
    forall b q, b < prod pre -> q < prod s ->
      pair_at (b * prod s + q) (t_data y) = Cmult (pair_at (b * prod s + q) (t_data x)) (if Nat.eqb c 1 then RtoC (nth q (t_data f) 0%R) else pair_at q (t_data f))).
Proof.
  intros pre s x f c Hc Hx Hf Lx Lf Kx Kf. unfold t_cdgmm, t_complex_check, t_contiguous_check. rewrite Hx, Hf, !split_last_snoc, Kx, Kf. cbn [bind].
  assert (Ck : (if Nat.eqb c 1 then raise_if (negb true) RuntimeError else _ <- raise_if (negb (Nat.eqb c 2)) TypeError ;; raise_if (negb true) RuntimeError) = Ok tt) by (destruct Hc as [-> | ->]; reflexivity).
  cbn [negb raise_if bind] in Ck |- *. rewrite Ck. cbn [bind Nat.eqb negb raise_if].
  assert (Sk : skipn (List.length (pre ++ s) + 1 - (List.length s + 1)) (pre ++ s) = s).
  { rewrite app_length. replace (List.length pre + List.length s + 1 - (List.length s + 1)) with (List.length pre) by lia. rewrite skipn_app, skipn_all, Nat.sub_diag. reflexivity. }
  assert (Fp : firstn (List.length (pre ++ s) - List.length s) (pre ++ s) = pre).
  { rewrite app_length. replace (List.length pre + List.length s - List.length s) with (List.length pre) by lia. rewrite firstn_app, Nat.sub_diag, firstn_all. cbn. apply app_nil_r. }
  rewrite Sk, Fp. destruct (list_eq_dec Nat.eq_dec s s) as [_|N]; [|congruence].
  rewrite Hx, prod_snoc, prod_app in Lx. rewrite Hf, prod_snoc in Lf. split.
  - intros D. destruct (t_dtype x), (t_dtype f); try congruence; reflexivity.
  - intros D. assert (E : fdtype_eqb (t_dtype x) (t_dtype f) = true) by (rewrite D; now destruct (t_dtype f)). rewrite E. cbn [negb].
    set (g := if Nat.eqb c 1 then cdgmm_real_row (t_data f) else cdgmm_complex_row (t_data f)).
    set (h := fun q => if Nat.eqb c 1 then RtoC (nth q (t_data f) 0%R) else pair_at q (t_data f)).
    assert (G : (forall w, List.length w = prod s * 2 -> List.length (g w) = prod s * 2) /\
      (forall w q, List.length w = prod s * 2 -> q < prod s -> pair_at q (g w) = Cmult (pair_at q w) (h q))).
    { unfold g, h. destruct Hc as [-> | ->]; cbn [Nat.eqb].
      - split.
        + intros w Lw. destruct (of_pairs_at w _ Lw) as (L & _). unfold cdgmm_real_row. rewrite flat_map_concat_map, (length_rows 2); [rewrite map_length, combine_length, L; lia|]. rewrite Forall_map. now apply Forall_forall.
        + intros w q Lw Hq. destruct (of_pairs_at w _ Lw) as (L & V). unfold pair_at at 1. unfold cdgmm_real_row.
          replace (q * 2) with (q * 2 + 0) at 1 by lia. rewrite !(flat_map_at _ 2 _ _ _ _ (RtoC 0, 0%R)) by (try reflexivity; try lia; rewrite combine_length, L; lia).
          rewrite combine_nth by lia. rewrite V by exact Hq. fold (pair_at q w). destruct (pair_at q w) as [a b]. cbn [fst snd nth]. unfold Cmult, RtoC. cbn [fst snd]. f_equal; ring.
      - split.
        + intros w Lw. destruct (of_pairs_at w _ Lw) as (L & _). destruct (of_pairs_at (t_data f) _ Lf) as (L' & _). unfold cdgmm_complex_row. rewrite flat_map_concat_map, (length_rows 2); [rewrite map_length, combine_length, L, L'; lia|].
          rewrite Forall_map. apply Forall_forall. now intros [a b] _.
        + intros w q Lw Hq. destruct (of_pairs_at w _ Lw) as (L & V). destruct (of_pairs_at (t_data f) _ Lf) as (L' & V'). unfold pair_at at 1. unfold cdgmm_complex_row.
          replace (q * 2) with (q * 2 + 0) at 1 by lia. rewrite !(flat_map_at _ 2 _ _ _ _ (RtoC 0, RtoC 0)) by (try (intros [? ?]; reflexivity); try lia; rewrite combine_length, L, L'; lia).
          rewrite combine_nth by lia. rewrite V, V' by exact Hq. fold (pair_at q w) (pair_at q (t_data f)). destruct (pair_at q w) as [a b], (pair_at q (t_data f)) as [a' b']. cbn [fst snd nth]. unfold Cmult. cbn [fst snd]. f_equal; ring. }
    destruct G as (G1 & G2). destruct (torch_product_at g h (prod pre) (prod s) (t_data x) ltac:(lia) G1 G2) as (L & V).
    eexists. split; [reflexivity|]. split; [reflexivity|]. split; [reflexivity|]. split; [|exact V]. cbn [t_shape t_data]. rewrite prod_snoc, prod_app, L. lia.
Qed.
Print Assumptions C125_torch.
(** Two signals of one complex number times a complex filter. *)
Example C125_torch_instance : exists y, t_cdgmm (mk_t F32 [2; 1; 2] [1; 2; 3; 4]%R true) (mk_t F32 [1; 2] [5; 6]%R true) = Ok y /\ pair_at 1 (t_data y) = Cmult (3%R, 4%R) (5%R, 6%R).
Proof.
  destruct (C125_torch [2] [1] (mk_t F32 [2; 1; 2] [1; 2; 3; 4]%R true) (mk_t F32 [1; 2] [5; 6]%R true) 2 (or_intror eq_refl) eq_refl eq_refl eq_refl eq_refl eq_refl eq_refl) as (_ & H).
  destruct (H eq_refl) as (y & E & _ & _ & _ & V). exists y. split; [exact E|]. exact (V 1 0 ltac:(cbn; lia) ltac:(cbn; lia)).
Qed.
