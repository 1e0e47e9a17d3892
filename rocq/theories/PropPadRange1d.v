(** Property C34, continued: which paddings the 1-D backends accept, and what they put where. *)
From Coq Require Import String Reals ZArith List Bool Arith Lia.
From Coquelicot Require Import Complex.
From Verif Require Import Base BaseProofs NdArray Backend NdProofs StackProofs JtfsValue ComplexOps Torch1d Tf1d PropShapes1d Dft.
Import ListNotations.
Local Open Scope Z_scope.

(** A padding as long as the signal, or longer, is refused by all three; NumPy also refuses negative amounts.  Otherwise NumPy and TensorFlow
    accept, and PyTorch does when there are one or two batch axes. *)
Theorem C34_accepted : forall pre n (x : nd C) (u : tft C) (t : tensor) l r,
  nd_shape x = pre ++ [n] -> nd_shape (tf_val u) = pre ++ [n] -> t_shape t = pre ++ [n] ->
  (Z.of_nat n <= l \/ Z.of_nat n <= r -> np_pad complex_ops x l r = Err ValueError /\ tf_pad complex_ops u l r = Err ValueError /\ t_pad t l r = Err ValueError) /\
  (l < 0 \/ r < 0 -> np_pad complex_ops x l r = Err ValueError) /\
  (0 <= l < Z.of_nat n -> 0 <= r < Z.of_nat n ->
    let long := Z.to_nat (l + Z.of_nat n + r) in
    (exists y, np_pad complex_ops x l r = Ok y /\ nd_shape y = pre ++ [long]) /\ (exists y, tf_pad complex_ops u l r = Ok y /\ nd_shape (tf_val y) = pre ++ [long]) /\
    (List.length pre = 1%nat \/ List.length pre = 2%nat -> exists y, t_pad t l r = Ok y /\ t_shape y = pre ++ [long; 1%nat]) /\
    (~ (List.length pre = 1%nat \/ List.length pre = 2%nat) -> t_pad t l r = Err NotImplementedError)).
Proof.
  intros pre n x u t l r Hx Hu Ht. unfold np_pad, tf_pad, t_pad. rewrite Hx, Hu, Ht, split_last_snoc. cbn [bind].
  split; [|split].
  - intros H. assert (E : ((Z.of_nat n <=? l) || (Z.of_nat n <=? r)) = true) by (rewrite orb_true_iff, !Z.leb_le; exact H). rewrite E. auto.
  - intros H. assert (E : ((l <? 0) || (r <? 0)) = true) by (rewrite orb_true_iff, !Z.ltb_lt; exact H). rewrite E. destruct ((Z.of_nat n <=? l) || (Z.of_nat n <=? r)); reflexivity.
  - intros Hl Hr. set (long := Z.to_nat (l + Z.of_nat n + r)). assert (E : ((Z.of_nat n <=? l) || (Z.of_nat n <=? r)) = false) by (rewrite orb_false_iff, !Z.leb_gt; lia).
    assert (E' : ((l <? 0) || (r <? 0)) = false) by (rewrite orb_false_iff, !Z.ltb_ge; lia). rewrite E, E'.
    assert (El : (Z.to_nat l + n + Z.to_nat r)%nat = long) by (unfold long; lia). rewrite El.
    split; [eexists; split; reflexivity|]. split; [eexists; split; reflexivity|].
    destruct (Nat.eqb_spec (List.length pre) 1) as [L1|L1]; destruct (Nat.eqb_spec (List.length pre) 2) as [L2|L2]; cbn [orb negb]; (split; [intros H|intros H]); try lia; try (eexists; split; reflexivity); reflexivity.
Qed.
Print Assumptions C34_accepted.
(** Where the samples go: [l] samples mirrored around the first one, the signal, [r] samples mirrored around the last one. *)
Theorem C34_samples : forall pre n (x : nd C) l r y, nd_wf x -> nd_shape x = pre ++ [n] -> (l < n)%nat -> (r < n)%nat ->
  np_pad complex_ops x (Z.of_nat l) (Z.of_nat r) = Ok y -> forall i, (i < prod pre)%nat ->
  let row := signal n i x in let row' := signal (l + n + r) i y in
  (forall k, (1 <= k <= l)%nat -> nth (l - k) row' (RtoC 0) = nth k row (RtoC 0)) /\
  (forall k, (k < n)%nat -> nth (l + k) row' (RtoC 0) = nth k row (RtoC 0)) /\
  (forall k, (1 <= k <= r)%nat -> nth (l + (n - 1) + k) row' (RtoC 0) = nth (n - 1 - k) row (RtoC 0)).
Proof.
  intros pre n x l r y Hw Hs Hl Hr Hy i Hi. destruct (of_rows_intro x pre n Hw Hs) as (rows & E & HR). rewrite E in Hy |- *.
  rewrite (np_pad_of complex_ops pre n rows HR) in Hy by assumption. injection Hy as <-. cbv zeta.
  assert (HR' : rows_ok pre (l + n + r) (map (pad_reflect_row complex_ops l r n) rows)).
  { apply (rows_ok_map pre n); [|exact HR]. intros row _. unfold pad_reflect_row. now rewrite map_length, seq_length. }
  rewrite !signal_of by assumption. destruct HR as [HB _]. rewrite (nth_map_in _ _ _ []) by lia. set (row := nth i rows []).
  assert (G : forall p, (p < l + n + r)%nat -> nth p (pad_reflect_row complex_ops l r n row) (RtoC 0) = nth (reflect_index n (Z.of_nat p - Z.of_nat l)) row (RtoC 0)).
  { intros p Hp. unfold pad_reflect_row. rewrite (nth_map_any _ _ _ _ 0%nat) by (rewrite seq_length; exact Hp). rewrite seq_nth by exact Hp. reflexivity. }
  split; [|split]; intros k Hk; rewrite G by lia; f_equal; unfold reflect_index;
    repeat match goal with |- context [Z.ltb ?a ?b] => destruct (Z.ltb_spec a b) end; lia.
Qed.
Print Assumptions C34_samples.
(** Two signals of 5 samples padded by 4 and 2; a padding of 5 is refused. *)
Example C34_accepted_instance : let x := mk_nd Real [2; 5]%nat (map (fun i => RtoC (INR i)) (seq 0 10)) in
  (exists y, np_pad complex_ops x 4 2 = Ok y /\ nd_shape y = [2; 11]%nat /\ nth 0 (signal 11 1 y) (RtoC 0) = RtoC (INR 9)) /\ np_pad complex_ops x 5 0 = Err ValueError.
Proof.
  intros x. assert (Hw : nd_wf x) by reflexivity.
  destruct (C34_accepted [2%nat] 5 x (mk_tf F32 x) (mk_t F32 [2; 5]%nat [] true) 4 2 eq_refl eq_refl eq_refl) as (_ & _ & H).
  destruct H as ((y & E & Sh) & _); try (cbn; lia).
  split.
  - exists y. split; [exact E|]. split; [exact Sh|]. destruct (C34_samples [2%nat] 5 x 4 2 y Hw eq_refl ltac:(lia) ltac:(lia) E 1%nat ltac:(cbn; lia)) as (A & _).
    exact (A 4%nat ltac:(lia)).
  - destruct (C34_accepted [2%nat] 5 x (mk_tf F32 x) (mk_t F32 [2; 5]%nat [] true) 5 0 eq_refl eq_refl eq_refl) as (H & _). apply H. left. lia.
Qed.
(** Entries of the flat data: row [i], sample [k] of rows of [n]. *)
Definition mirrored {A} (d : A) (B l n r : nat) (X Y : list A) : Prop := List.length Y = (B * (l + n + r))%nat /\ forall i, (i < B)%nat ->
  (forall k, (1 <= k <= l)%nat -> nth (i * (l + n + r) + (l - k)) Y d = nth (i * n + k) X d) /\
  (forall k, (k < n)%nat -> nth (i * (l + n + r) + (l + k)) Y d = nth (i * n + k) X d) /\
  (forall k, (1 <= k <= r)%nat -> nth (i * (l + n + r) + (l + (n - 1) + k)) Y d = nth (i * n + (n - 1 - k)) X d).
Lemma mirrored_rows {A} (o : ops A) B l n r (X : list A) : List.length X = (B * n)%nat -> (l < n)%nat -> (r < n)%nat ->
  mirrored (o_zero o) B l n r X (concat (map (pad_reflect_row o l r n) (chunks B n X))).
Proof.
  intros HX Hl Hr. destruct (chunks_ok B n X HX) as (H1 & H2 & H3).
  assert (F : List.Forall (fun w => List.length w = (l + n + r)%nat) (map (pad_reflect_row o l r n) (chunks B n X))).
  { rewrite Forall_map. apply Forall_forall. intros w _. unfold pad_reflect_row. now rewrite map_length, seq_length. }
  assert (L : List.length (map (pad_reflect_row o l r n) (chunks B n X)) = B) by now rewrite map_length.
  split.
  { revert L F. generalize (map (pad_reflect_row o l r n) (chunks B n X)). clear. intros rows L F. rewrite <- L. clear L. induction F as [|w ws Hw F IH]; [reflexivity|]. cbn. rewrite app_length, IH, Hw. lia. }
  intros i Hi.
  assert (G : forall p, (p < l + n + r)%nat -> (reflect_index n (Z.of_nat p - Z.of_nat l) < n)%nat ->
    nth (i * (l + n + r) + p) (concat (map (pad_reflect_row o l r n) (chunks B n X))) (o_zero o) = nth (i * n + reflect_index n (Z.of_nat p - Z.of_nat l)) X (o_zero o)).
  { intros p Hp Hq. rewrite <- H3 at 2. rewrite !nth_concat_const by (try assumption; lia). rewrite (nth_map_any _ _ _ _ []) by lia.
    unfold pad_reflect_row. rewrite (nth_map_any _ _ _ _ 0%nat) by (rewrite seq_length; exact Hp). rewrite seq_nth by exact Hp. reflexivity. }
  split; [|split]; intros k Hk;
    [pose proof (G (l - k)%nat ltac:(lia)) as G'|pose proof (G (l + k)%nat ltac:(lia)) as G'|pose proof (G (l + (n - 1) + k)%nat ltac:(lia)) as G'];
    unfold reflect_index in G';
    repeat match type of G' with context [Z.ltb ?a ?b] => destruct (Z.ltb_spec a b) end; rewrite G' by lia; f_equal; lia.
Qed.
(** Where the samples go, in the three backends: [l] samples mirrored around the first one, the signal, [r] samples mirrored around the last one. *)
Theorem C34_mirrored : forall pre n l r, (l < n)%nat -> (r < n)%nat ->
  (forall (x y : nd C), nd_wf x -> nd_shape x = pre ++ [n] -> np_pad complex_ops x (Z.of_nat l) (Z.of_nat r) = Ok y -> mirrored (RtoC 0) (prod pre) l n r (nd_data x) (nd_data y)) /\
  (forall (x y : tft C), nd_wf (tf_val x) -> nd_shape (tf_val x) = pre ++ [n] -> tf_pad complex_ops x (Z.of_nat l) (Z.of_nat r) = Ok y ->
    tf_prec y = tf_prec x /\ mirrored (RtoC 0) (prod pre) l n r (nd_data (tf_val x)) (nd_data (tf_val y))) /\
  (forall x y : tensor, List.length (t_data x) = prod (t_shape x) -> t_shape x = pre ++ [n] -> t_pad x (Z.of_nat l) (Z.of_nat r) = Ok y ->
    t_dtype y = t_dtype x /\ mirrored 0%R (prod pre) l n r (t_data x) (t_data y)).
Proof.
  intros pre n l r Hl Hr.
  assert (E : ((Z.of_nat n <=? Z.of_nat l) || (Z.of_nat n <=? Z.of_nat r)) = false) by (rewrite orb_false_iff, !Z.leb_gt; lia).
  assert (E' : ((Z.of_nat l <? 0) || (Z.of_nat r <? 0)) = false) by (rewrite orb_false_iff, !Z.ltb_ge; lia).
  split; [|split].
  - intros x y Hw Hs. unfold np_pad. rewrite Hs, split_last_snoc. cbn [bind]. rewrite E, E', !Nat2Z.id. intros Hy. injection Hy as <-.
    unfold nd_wf in Hw. rewrite Hs, prod_snoc in Hw. exact (mirrored_rows complex_ops _ l n r (nd_data x) Hw Hl Hr).
  - intros x y Hw Hs. unfold tf_pad. rewrite Hs, split_last_snoc. cbn [bind]. rewrite E, E', !Nat2Z.id. intros Hy. injection Hy as <-. split; [reflexivity|].
    unfold nd_wf in Hw. rewrite Hs, prod_snoc in Hw. exact (mirrored_rows complex_ops _ l n r (nd_data (tf_val x)) Hw Hl Hr).
  - intros x y Hw Hs. unfold t_pad. rewrite Hs, split_last_snoc. cbn [bind]. rewrite E, E'. destruct (negb _); [discriminate|]. rewrite !Nat2Z.id. intros Hy. injection Hy as <-. split; [reflexivity|].
    rewrite Hs, prod_snoc in Hw. exact (mirrored_rows real_ops _ l n r (t_data x) Hw Hl Hr).
Qed.
Print Assumptions C34_mirrored.
(** Two PyTorch signals of 3 samples padded by 2 and 1. *)
Example C34_mirrored_instance : forall y, t_pad (mk_t F32 [2; 3]%nat [1; 2; 3; 4; 5; 6]%R true) 2 1 = Ok y -> nth 6 (t_data y) 0%R = 6%R /\ nth 11 (t_data y) 0%R = 5%R.
Proof.
  intros y H. destruct (C34_mirrored [2%nat] 3 2 1 ltac:(lia) ltac:(lia)) as (_ & _ & T). destruct (T (mk_t F32 [2; 3]%nat [1; 2; 3; 4; 5; 6]%R true) y eq_refl eq_refl H) as (_ & _ & M).
  destruct (M 1%nat ltac:(cbn; lia)) as (A & _ & B). split; [exact (A 2%nat ltac:(lia))|exact (B 1%nat ltac:(lia))].
Qed.
Example C34_mirrored_reached : exists y, t_pad (mk_t F32 [2; 3]%nat [1; 2; 3; 4; 5; 6]%R true) 2 1 = Ok y.
Proof. eexists. reflexivity. Qed.
(** Padding then unpadding is the identity with PyTorch and TensorFlow too; PyTorch's unpad refuses a trailing axis whose length is not one. *)
Theorem C34_unpad_others : forall pre n l r, (l < n)%nat -> (r < n)%nat ->
  (forall (x y : tft C), nd_wf (tf_val x) -> nd_shape (tf_val x) = pre ++ [n] -> tf_pad complex_ops x (Z.of_nat l) (Z.of_nat r) = Ok y ->
    tf_unpad y (Z.of_nat l) (Z.of_nat (l + n)) = Ok x) /\
  (forall x y : tensor, List.length (t_data x) = prod (t_shape x) -> t_shape x = pre ++ [n] -> t_pad x (Z.of_nat l) (Z.of_nat r) = Ok y ->
    t_unpad y (Z.of_nat l) (Z.of_nat (l + n)) = Ok (mk_t (t_dtype x) (t_shape x) (t_data x) false)) /\
  (forall (x : tensor) c i0 i1, c <> 1%nat -> prod pre <> 0%nat -> t_shape x = pre ++ [c] -> t_unpad x i0 i1 = Err RuntimeError).
Proof.
  intros pre n l r Hl Hr.
  assert (E : ((Z.of_nat n <=? Z.of_nat l) || (Z.of_nat n <=? Z.of_nat r)) = false) by (rewrite orb_false_iff, !Z.leb_gt; lia).
  assert (E' : ((Z.of_nat l <? 0) || (Z.of_nat r <? 0)) = false) by (rewrite orb_false_iff, !Z.ltb_ge; lia).
  assert (Id : forall A (o : ops A) B (X : list A), List.length X = (B * n)%nat ->
    concat (map (slice l (l + n)) (chunks B (l + n + r) (concat (map (pad_reflect_row o l r n) (chunks B n X))))) = X).
  { intros A o B X HX. destruct (chunks_ok B n X HX) as (H1 & H2 & H3).
    assert (F : List.Forall (fun w => List.length w = (l + n + r)%nat) (map (pad_reflect_row o l r n) (chunks B n X))).
    { rewrite Forall_map. apply Forall_forall. intros w _. unfold pad_reflect_row. now rewrite map_length, seq_length. }
    pose proof (chunks_concat _ _ F) as Ec. rewrite map_length, H1 in Ec. rewrite Ec, map_map. rewrite <- H3 at 2. f_equal. rewrite <- (map_id (chunks B n X)) at 2.
    apply map_ext_in. intros w Hw. assert (Lw : List.length w = n) by (rewrite Forall_forall in H2; now apply H2).
    assert (Lp : List.length (pad_reflect_row o l r n w) = (l + n + r)%nat) by (unfold pad_reflect_row; now rewrite map_length, seq_length).
    apply nth_ext with (d := o_zero o) (d' := o_zero o); [unfold slice; rewrite firstn_length, skipn_length, Lp; lia|].
    intros t Ht. unfold slice in Ht. rewrite firstn_length, skipn_length, Lp in Ht. rewrite nth_slice by lia.
    unfold pad_reflect_row. rewrite (nth_map_any _ _ _ _ 0%nat) by (rewrite seq_length; lia). rewrite seq_nth by lia. f_equal. unfold reflect_index.
    repeat match goal with |- context [Z.ltb ?a ?b] => destruct (Z.ltb_spec a b) end; lia. }
  assert (Em : (Nat.min (l + n) (l + n + r) - Nat.min l (l + n + r))%nat = n) by lia.
  split; [|split].
  - intros [pr [dt sh X]] y Hw Hs. cbn in Hw, Hs. unfold nd_wf in Hw. cbn in Hw. subst sh. unfold tf_pad. cbn [tf_val nd_shape nd_dtype]. rewrite split_last_snoc. cbn [bind]. rewrite E, E', !Nat2Z.id. intros Hy. injection Hy as <-.
    unfold tf_unpad, map_rows. cbn [tf_val nd_shape nd_dtype nd_data tf_prec]. rewrite split_last_snoc. cbn [bind]. rewrite !Nat2Z.id, Em. do 3 f_equal.
    apply Id. now rewrite prod_snoc in Hw.
  - intros x y Hw Hs. unfold t_pad. rewrite Hs, split_last_snoc. cbn [bind]. rewrite E, E'. destruct (negb _); [discriminate|]. rewrite !Nat2Z.id. intros Hy. injection Hy as <-.
    unfold t_unpad. cbn [t_shape t_data t_dtype]. replace (pre ++ [(l + n + r)%nat; 1%nat]) with ((pre ++ [(l + n + r)%nat]) ++ [1%nat]) by (now rewrite <- app_assoc).
    rewrite split_last_snoc. cbn [bind]. rewrite (prod_snoc (pre ++ _)), Nat.mul_1_r, Nat.eqb_refl. cbn [negb]. rewrite split_last_snoc. cbn [bind]. rewrite !Nat2Z.id, Em.
    rewrite Hs, prod_snoc in Hw. now rewrite Id.
  - intros x c i0 i1 Hc Hp Hs. unfold t_unpad. rewrite Hs, split_last_snoc. cbn [bind]. rewrite prod_snoc.
    destruct (Nat.eqb_spec (prod pre) (prod pre * c)) as [Q|Q]; [|reflexivity]. exfalso. apply Hc. nia.
Qed.
Print Assumptions C34_unpad_others.
Example C34_unpad_others_instance : let x := mk_t F32 [2; 3]%nat [1; 2; 3; 4; 5; 6]%R true in
  (exists y, t_pad x 2 1 = Ok y /\ t_unpad y 2 5 = Ok (mk_t F32 [2; 3]%nat [1; 2; 3; 4; 5; 6]%R false)) /\ t_unpad x 0 1 = Err RuntimeError.
Proof.
  intros x. destruct (C34_unpad_others [2%nat] 3 2 1 ltac:(lia) ltac:(lia)) as (_ & T & R). split.
  - destruct C34_mirrored_reached as (y & H). exists y. split; [exact H|]. exact (T x y eq_refl eq_refl H).
  - apply (R x 3%nat 0 1); [lia|cbn; lia|reflexivity].
Qed.
