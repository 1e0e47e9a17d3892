(** Property C43, continued: which paddings the PyTorch and TensorFlow modules accept. *)
From Coq Require Import String ZArith List Bool Arith Lia.
From Verif Require Import Base BaseProofs NdArray Backend NdProofs Backend2d Images Pad2d.
Import ListNotations.
Local Open Scope Z_scope.

(** A padding of [t] before and [b] after an axis of [n] samples fits if both are less than [n], or if the first is [n] and the second at
    most [n].  Nothing is said of a padding of [n] before and 0 after, for which the modules would crop. *)
Theorem C43_accepted : forall (K : Type) (o : ops K) pre M N x t b l r, nd_shape x = pre ++ [M; N] -> (2 <= M)%nat -> (2 <= N)%nat ->
  0 <= t -> 0 <= b -> 0 <= l -> 0 <= r -> (t = Z.of_nat M -> 1 <= b) -> (l = Z.of_nat N -> 1 <= r) ->
  let fits n t b := t < Z.of_nat n /\ b < Z.of_nat n \/ t = Z.of_nat n /\ b <= Z.of_nat n in
  let tf := tf2_pad o (t, b, l, r) (Z.of_nat M, Z.of_nat N) x in
  let torch := torch2_pad o (t, b, l, r) (Z.of_nat M, Z.of_nat N) x in
  (fits M t b /\ fits N l r -> exists y, tf = Ok y /\ nd_shape y = pre ++ [Z.to_nat (t + Z.of_nat M + b); Z.to_nat (l + Z.of_nat N + r)] /\
     torch = Ok (mk_nd (nd_dtype y) (nd_shape y ++ [1%nat]) (nd_data y))) /\
  (~ (fits M t b /\ fits N l r) -> (exists e, tf = Err e) /\ torch = Err RuntimeError).
Proof.
  intros K o pre M N x t b l r Hs HM HN Ht Hb Hl Hr Hb1 Hr1 fits tf torch.
  unfold tf, torch, torch2_pad, tf2_pad.
  set (t' := if t =? Z.of_nat M then t - 1 else t). set (b' := if t =? Z.of_nat M then b - 1 else b).
  set (l' := if l =? Z.of_nat N then l - 1 else l). set (r' := if l =? Z.of_nat N then r - 1 else r).
  assert (E : forall e, special_pad o e (t, b, l, r) (Z.of_nat M, Z.of_nat N) x =
    (x <- reflection_pad o e t' b' l' r' x ;; x <- (if t =? Z.of_nat M then wrap_rows o x else Ok x) ;; if l =? Z.of_nat N then wrap_cols o x else Ok x)).
  { intros e. unfold special_pad, t', b', l', r'. destruct (t =? Z.of_nat M), (l =? Z.of_nat N); reflexivity. }
  rewrite !E. clear E. unfold reflection_pad. rewrite Hs, split_last2_app. cbn [bind].
  assert (N0 : ((t' <? 0) || (b' <? 0) || (l' <? 0) || (r' <? 0)) = false).
  { rewrite !orb_false_iff, !Z.ltb_ge. unfold t', b', l', r'. destruct (Z.eqb_spec t (Z.of_nat M)), (Z.eqb_spec l (Z.of_nat N)); lia. }
  rewrite N0. clear N0.
  destruct ((Z.of_nat M <=? t') || (Z.of_nat M <=? b') || (Z.of_nat N <=? l') || (Z.of_nat N <=? r')) eqn:Big.
  - split; [|intros _; split; [eexists; reflexivity|reflexivity]]. intros [F1 F2]. exfalso. rewrite !orb_true_iff, !Z.leb_le in Big. unfold fits in *.
    unfold t', b', l', r' in Big. destruct (Z.eqb_spec t (Z.of_nat M)), (Z.eqb_spec l (Z.of_nat N)); lia.
  - rewrite !orb_false_iff, !Z.leb_gt in Big. split.
    + intros [F1 F2]. unfold wrap_rows, wrap_cols, map_imgs. cbn [bind nd_shape nd_dtype].
      unfold t', b', l', r' in *.
      destruct (Z.eqb_spec t (Z.of_nat M)), (Z.eqb_spec l (Z.of_nat N)); cbn [bind nd_shape]; rewrite ?split_last2_app; cbn [bind nd_shape];
        repeat (match goal with |- context [Nat.ltb ?a 2] => destruct (Nat.ltb_spec a 2); [exfalso; lia|] end; cbn [bind nd_shape]; rewrite ?split_last2_app; cbn [bind nd_shape]);
        (eexists; split; [reflexivity|]; cbn [nd_shape nd_dtype nd_data]; split; [do 3 f_equal; try lia; f_equal; lia|reflexivity]).
    + intros F. exfalso. apply F. unfold fits. unfold t', b', l', r' in Big. destruct (Z.eqb_spec t (Z.of_nat M)), (Z.eqb_spec l (Z.of_nat N)); lia.
Qed.
Print Assumptions C43_accepted.
(** NumPy, on a batch of non-empty images, accepts every padding. *)
Theorem C43_numpy_any : forall (K : Type) (o : ops K) B M N x t b l r size, nd_shape x = [B; M; N] -> (0 < M)%nat -> (0 < N)%nat ->
  0 <= t -> 0 <= b -> 0 <= l -> 0 <= r ->
  exists y, np2_pad o (t, b, l, r) size x = Ok y /\ nd_shape y = [B; Z.to_nat (t + Z.of_nat M + b); Z.to_nat (l + Z.of_nat N + r)].
Proof.
  intros K o B M N x t b l r size Hs HM HN Ht Hb Hl Hr. unfold np2_pad. rewrite Hs.
  assert (N0 : ((t <? 0) || (b <? 0) || (l <? 0) || (r <? 0)) = false) by (rewrite !orb_false_iff, !Z.ltb_ge; lia). rewrite N0.
  destruct (Nat.eqb_spec M 0); [lia|]. destruct (Nat.eqb_spec N 0); [lia|]. cbn [orb].
  eexists. split; [reflexivity|]. unfold map_imgs. cbn [nd_shape app]. do 2 f_equal; [lia|]. f_equal. lia.
Qed.
Print Assumptions C43_numpy_any.
(** 4 x 5 images: (4, 3, 4, 4) is accepted, (3, 4, 4, 4) is not, except by NumPy. *)
Example C43_accepted_instance : forall (o : ops Z) x, nd_shape x = [1; 4; 5]%nat ->
  (exists y, tf2_pad o (4, 3, 4, 4) (4, 5) x = Ok y /\ nd_shape y = [1; 11; 13]%nat) /\ torch2_pad o (3, 4, 4, 4) (4, 5) x = Err RuntimeError /\
  exists y, np2_pad o (3, 4, 4, 4) (4, 5) x = Ok y /\ nd_shape y = [1; 11; 13]%nat.
Proof.
  intros o x Hs. split; [|split].
  - destruct (C43_accepted Z o [1%nat] 4 5 x 4 3 4 4 Hs) as [(y & E & Sh & _) _]; try lia. exists y. split; [exact E|exact Sh].
  - destruct (C43_accepted Z o [1%nat] 4 5 x 3 4 4 4 Hs) as [_ [_ E]]; try lia. exact E.
  - apply (C43_numpy_any Z o 1%nat 4 5 x 3 4 4 4 (4, 5) Hs); lia.
Qed.

(** Being accepted is not enough: with a full padding of M rows before and a shorter one of b >= 2 rows after, the row added last is not
    that of NumPy (the code assumes that the padding is full on both sides; the frontends only ask for such paddings, see C43_padding_agrees). *)
Theorem C43_uneven_refuted : forall (o : ops Z) M N b, (2 <= b)%nat -> (b < M)%nat -> (2 <= N)%nat ->
  exists x y y', nd_wf x /\ nd_shape x = [1; M; N]%nat /\
    tf2_pad o (Z.of_nat M, Z.of_nat b, 0, 0) (Z.of_nat M, Z.of_nat N) x = Ok y /\ np2_pad o (Z.of_nat M, Z.of_nat b, 0, 0) (Z.of_nat M, Z.of_nat N) x = Ok y' /\
    nd_shape y = nd_shape y' /\ nd_data y <> nd_data y'.
Proof.
  intros o M N b Hb HbM HN. set (im := img M N (fun u _ => Z.of_nat u)).
  assert (Hi : imgs_ok [1%nat] M N [im]) by (split; [reflexivity|]; repeat constructor; apply img_length).
  set (x := of_imgs Real [1%nat] M N [im]).
  set (f1 := fun im : list Z => img (M - 1 + M + (b - 1)) (0 + N + 0) (fun u v => iat (o_zero o) N im (reflect_index M (Z.of_nat u - Z.of_nat (M - 1))) (reflect_index N (Z.of_nat v - Z.of_nat 0)))).
  assert (Hi1 : imgs_ok [1%nat] (M - 1 + M + (b - 1)) (0 + N + 0) (map f1 [im])) by (apply (imgs_ok_map _ M N); [intros; apply img_length|exact Hi]).
  assert (E1 : reflection_pad o ValueError (Z.of_nat M - 1) (Z.of_nat b - 1) 0 0 x = Ok (of_imgs Real [1%nat] (M - 1 + M + (b - 1)) (0 + N + 0) (map f1 [im]))).
  { pose proof (reflection_pad_of o [1%nat] M N [im] Hi ValueError Real (M - 1) (b - 1) 0 0 ltac:(lia) ltac:(lia) ltac:(lia) ltac:(lia)) as E.
    replace (Z.of_nat (M - 1)) with (Z.of_nat M - 1) in E at 1 by lia. replace (Z.of_nat (b - 1)) with (Z.of_nat b - 1) in E by lia. exact E. }
  exists x. do 2 eexists. split; [now apply of_imgs_wf|]. split; [reflexivity|].
  split; [|split; [|split]].
  - unfold tf2_pad, special_pad. rewrite Z.eqb_refl. destruct (Z.eqb_spec 0 (Z.of_nat N)); [lia|]. rewrite E1. cbn [bind]. rewrite (wrap_rows_of o _ _ _ _ Hi1) by lia. reflexivity.
  - apply (np2_pad_of o 1 M N [im] Hi Real M b 0 0); lia.
  - cbn [of_imgs nd_shape app]. do 2 f_equal. lia.
  - cbn [of_imgs nd_data map concat]. rewrite !app_nil_r. intros E.
    apply (f_equal (fun l => iat (o_zero o) (0 + N + 0) l (M + M + b - 1) 0)) in E. unfold pad_img in E. rewrite !iat_img in E by lia.
    destruct (Nat.eqb_spec (M + M + b - 1) 0); [lia|]. destruct (Nat.leb_spec (M + M + b - 1) (M - 1 + M + (b - 1))); [lia|].
    unfold f1 in E. rewrite !iat_img in E by lia. rewrite !reflect_near in E by lia. unfold reflect_index, im in E.
    repeat match type of E with context [Z.ltb ?a ?b] => destruct (Z.ltb_spec a b) end; rewrite !iat_img in E by lia; lia.
Qed.
Print Assumptions C43_uneven_refuted.
(** 4 x 5 images padded with 4 rows before and 2 after. *)
Example C43_uneven_instance : forall o : ops Z, exists x y y', nd_shape x = [1; 4; 5]%nat /\ tf2_pad o (4, 2, 0, 0) (4, 5) x = Ok y /\ np2_pad o (4, 2, 0, 0) (4, 5) x = Ok y' /\ nd_data y <> nd_data y'.
Proof.
  intros o. destruct (C43_uneven_refuted o 4 5 2 ltac:(lia) ltac:(lia) ltac:(lia)) as (x & y & y' & _ & Hs & E & E' & _ & H). exists x, y, y'. auto.
Qed.
