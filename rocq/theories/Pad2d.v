(** The padding modules of PyTorch and TensorFlow (2-D) reflect like NumPy. *)
From Coq Require Import String ZArith List Bool Arith Lia.
From Verif Require Import Base BaseProofs NdArray Backend NdProofs StackProofs Backend2d Images Rows1d FilterBank2d Frontend2d.
Import ListNotations.
Local Open Scope nat_scope.
Local Ltac Zify.zify_post_hook ::= Z.div_mod_to_equations.

(** Both reflections agree within one reflection of the image. *)
Lemma reflect_near n i : 2 <= n -> (- (Z.of_nat n - 1) <= i <= 2 * (Z.of_nat n - 1))%Z -> reflect n i = reflect_index n i.
Proof.
  intros Hn Hi. unfold reflect, reflect_index. destruct (Nat.eqb_spec n 1); [lia|]. f_equal.
  set (p := (2 * (Z.of_nat n - 1))%Z) in *. assert (Hp : (0 < p)%Z) by lia.
  destruct (Z.ltb_spec i 0).
  - replace (i mod p)%Z with (i + p)%Z by (apply (Z.mod_unique i p (-1)); lia). destruct (Z.ltb_spec (i + p) (Z.of_nat n)); lia.
  - destruct (Z.eq_dec i p) as [->|].
    + rewrite Z_mod_same_full. destruct (Z.ltb_spec 0 (Z.of_nat n)); [|lia]. destruct (Z.ltb_spec p (Z.of_nat n)); lia.
    + rewrite (Z.mod_small i p) by lia. destruct (Z.ltb_spec i (Z.of_nat n)); lia.
Qed.
Lemma reflect_lt n i : 0 < n -> reflect n i < n.
Proof.
  intros Hn. unfold reflect. destruct (Nat.eqb_spec n 1); [lia|]. set (p := (2 * (Z.of_nat n - 1))%Z).
  pose proof (Z.mod_pos_bound i p). destruct (Z.ltb_spec (i mod p) (Z.of_nat n)); lia.
Qed.
Lemma reflect_inside n i : (0 <= i < Z.of_nat n)%Z -> reflect n i = Z.to_nat i.
Proof.
  intros Hi. unfold reflect. destruct (Nat.eqb_spec n 1); [lia|]. rewrite Z.mod_small by lia. destruct (Z.ltb_spec i (Z.of_nat n)); lia.
Qed.
Lemma reflect_period n i k : reflect n (i + k * (2 * (Z.of_nat n - 1))) = reflect n i.
Proof.
  unfold reflect. destruct (Nat.eqb_spec n 1); [reflexivity|]. now rewrite Z_mod_plus_full.
Qed.

Section PadT.
Context {K : Type} (o : ops K).
Notation z := (o_zero o).
Variables (pre : list nat) (M N : nat) (ims : list (list K)).
Hypothesis (Hi : imgs_ok pre M N ims).

Lemma reflection_pad_of e d t b l r : t < M -> b < M -> l < N -> r < N ->
  reflection_pad o e (Z.of_nat t) (Z.of_nat b) (Z.of_nat l) (Z.of_nat r) (of_imgs d pre M N ims) =
  Ok (of_imgs d pre (t + M + b) (l + N + r) (map (fun im => img (t + M + b) (l + N + r) (fun u v =>
        iat z N im (reflect_index M (Z.of_nat u - Z.of_nat t)) (reflect_index N (Z.of_nat v - Z.of_nat l)))) ims)).
Proof.
  intros Ht Hb Hl Hr. unfold reflection_pad. cbn [of_imgs nd_shape]. rewrite split_last2_app. cbn [bind].
  destruct (Z.ltb_spec (Z.of_nat t) 0); [lia|]. destruct (Z.ltb_spec (Z.of_nat b) 0); [lia|].
  destruct (Z.ltb_spec (Z.of_nat l) 0); [lia|]. destruct (Z.ltb_spec (Z.of_nat r) 0); [lia|]. cbn [orb].
  destruct (Z.leb_spec (Z.of_nat M) (Z.of_nat t)); [lia|]. destruct (Z.leb_spec (Z.of_nat M) (Z.of_nat b)); [lia|].
  destruct (Z.leb_spec (Z.of_nat N) (Z.of_nat l)); [lia|]. destruct (Z.leb_spec (Z.of_nat N) (Z.of_nat r)); [lia|]. cbn [orb].
  rewrite !Nat2Z.id. cbn [nd_dtype]. now rewrite (map_imgs_of d d pre) by exact Hi.
Qed.
Lemma wrap_rows_of d : 2 <= M -> wrap_rows o (of_imgs d pre M N ims) =
  Ok (of_imgs d pre (M + 2) N (map (fun im => img (M + 2) N (fun u v =>
         if Nat.eqb u 0 then iat z N im 1 v else if Nat.leb u M then iat z N im (u - 1) v else iat z N im (M - 2) v)) ims)).
Proof.
  intros H. unfold wrap_rows. cbn [of_imgs nd_shape]. rewrite split_last2_app. cbn [bind]. destruct (Nat.ltb_spec M 2); [lia|].
  cbn [nd_dtype]. now rewrite (map_imgs_of d d pre) by exact Hi.
Qed.
Lemma wrap_cols_of d : 2 <= N -> wrap_cols o (of_imgs d pre M N ims) =
  Ok (of_imgs d pre M (N + 2) (map (fun im => img M (N + 2) (fun u v =>
         if Nat.eqb v 0 then iat z N im u 1 else if Nat.leb v N then iat z N im u (v - 1) else iat z N im u (N - 2))) ims)).
Proof.
  intros H. unfold wrap_cols. cbn [of_imgs nd_shape]. rewrite split_last2_app. cbn [bind]. destruct (Nat.ltb_spec N 2); [lia|].
  cbn [nd_dtype]. now rewrite (map_imgs_of d d pre) by exact Hi.
Qed.
End PadT.

Section Special.
Context {K : Type} (o : ops K).
Notation z := (o_zero o).
Variables (pre : list nat) (M N : nat) (ims : list (list K)).
Hypothesis (Hi : imgs_ok pre M N ims).

(** Paddings that the modules handle: at most the size of the image, and equal to it on both sides or on none. *)
Definition pad_ok (n t b : nat) : Prop := (t < n /\ b < n) \/ (t = n /\ b = n).
(** Reading position along an axis: reflection with padding [t'] (one less when the padding is the size), then wrapping. *)
Definition wrapped (n t : nat) (u : nat) : nat :=
  if Nat.eqb t n then
    if Nat.eqb u 0 then reflect_index n (1 - (Z.of_nat n - 1))
    else if Nat.leb u (3 * n - 2) then reflect_index n (Z.of_nat (u - 1) - (Z.of_nat n - 1))
    else reflect_index n (Z.of_nat (3 * n - 4) - (Z.of_nat n - 1))
  else reflect_index n (Z.of_nat u - Z.of_nat t).
Lemma wrapped_reflect n t b u : 2 <= n -> pad_ok n t b -> u < t + n + b -> wrapped n t u = reflect n (Z.of_nat u - Z.of_nat t).
Proof.
  intros Hn Hp Hu. unfold wrapped. destruct (Nat.eqb_spec t n) as [->|Ht].
  - assert (Hb : b = n) by (destruct Hp; lia). subst b.
    destruct (Nat.eqb_spec u 0) as [->|].
    + rewrite <- (reflect_period n _ 1). rewrite reflect_near by lia. unfold reflect_index.
      destruct (Z.ltb_spec (1 - (Z.of_nat n - 1)) 0); destruct (Z.ltb_spec (Z.of_nat 0 - Z.of_nat n + 1 * (2 * (Z.of_nat n - 1))) 0);
      destruct (Z.ltb_spec (1 - (Z.of_nat n - 1)) (Z.of_nat n)); destruct (Z.ltb_spec (Z.of_nat 0 - Z.of_nat n + 1 * (2 * (Z.of_nat n - 1))) (Z.of_nat n)); lia.
    + destruct (Nat.leb_spec u (3 * n - 2)).
      * rewrite reflect_near by lia. f_equal. lia.
      * rewrite <- (reflect_period n _ (-1)). rewrite reflect_near by lia. unfold reflect_index.
        repeat match goal with |- context [Z.ltb ?a ?b] => destruct (Z.ltb_spec a b) end; lia.
  - rewrite reflect_near by (destruct Hp; lia). reflexivity.
Qed.
Lemma special_pad_of e d t b l r : 2 <= M -> 2 <= N -> pad_ok M t b -> pad_ok N l r ->
  special_pad o e (Z.of_nat t, Z.of_nat b, Z.of_nat l, Z.of_nat r) (Z.of_nat M, Z.of_nat N) (of_imgs d pre M N ims) =
  Ok (of_imgs d pre (t + M + b) (l + N + r) (map (pad_img o M N t b l r) ims)).
Proof.
  intros HM HN Pt Pl. unfold special_pad.
  (* the amounts given to the first padding *)
  set (s1 := if Nat.eqb t M then 1 else 0). set (s2 := if Nat.eqb l N then 1 else 0).
  assert (E1 : (if (Z.of_nat t =? Z.of_nat M)%Z then (Z.of_nat t - 1, Z.of_nat b - 1)%Z else (Z.of_nat t, Z.of_nat b)) = (Z.of_nat (t - s1), Z.of_nat (b - s1))).
  { unfold s1. destruct (Z.eqb_spec (Z.of_nat t) (Z.of_nat M)), (Nat.eqb_spec t M); try lia; f_equal; destruct Pt; lia. }
  assert (E2 : (if (Z.of_nat l =? Z.of_nat N)%Z then (Z.of_nat l - 1, Z.of_nat r - 1)%Z else (Z.of_nat l, Z.of_nat r)) = (Z.of_nat (l - s2), Z.of_nat (r - s2))).
  { unfold s2. destruct (Z.eqb_spec (Z.of_nat l) (Z.of_nat N)), (Nat.eqb_spec l N); try lia; f_equal; destruct Pl; lia. }
  rewrite E1, E2.
  assert (B1 : t - s1 < M /\ b - s1 < M) by (unfold s1; destruct (Nat.eqb_spec t M); destruct Pt; lia).
  assert (B2 : l - s2 < N /\ r - s2 < N) by (unfold s2; destruct (Nat.eqb_spec l N); destruct Pl; lia).
  rewrite (reflection_pad_of o pre M N ims Hi) by apply B1 || apply B2. cbn [bind].
  set (M1 := t - s1 + M + (b - s1)). set (N1 := l - s2 + N + (r - s2)).
  set (f1 := fun im : list K => img M1 N1 (fun u v => iat z N im (reflect_index M (Z.of_nat u - Z.of_nat (t - s1))) (reflect_index N (Z.of_nat v - Z.of_nat (l - s2))))).
  assert (Hi1 : imgs_ok pre M1 N1 (map f1 ims)) by (apply (imgs_ok_map _ M N); [intros; apply img_length|exact Hi]).
  set (f2 := fun im : list K => img (t + M + b) N1 (fun u v => iat z N im (wrapped M t u) (reflect_index N (Z.of_nat v - Z.of_nat (l - s2))))).
  assert (Hi2 : imgs_ok pre (t + M + b) N1 (map f2 ims)) by (apply (imgs_ok_map _ M N); [intros; apply img_length|exact Hi]).
  assert (R : (if (Z.of_nat t =? Z.of_nat M)%Z then wrap_rows o (of_imgs d pre M1 N1 (map f1 ims)) else Ok (of_imgs d pre M1 N1 (map f1 ims)))
              = Ok (of_imgs d pre (t + M + b) N1 (map f2 ims))).
  { destruct (Z.eqb_spec (Z.of_nat t) (Z.of_nat M)) as [Et|Et].
    - assert (t = M) by lia. assert (b = M) by (destruct Pt; lia). unfold s1 in *. destruct (Nat.eqb_spec t M); [|lia].
      assert (EM : M1 = 3 * M - 2) by (unfold M1, s1; lia).
      rewrite (wrap_rows_of o pre M1 N1 _ Hi1) by lia. replace (M1 + 2) with (t + M + b) by lia. do 2 f_equal. rewrite map_map.
      apply map_ext. intros im. unfold f2. apply img_ext. intros u v Hu Hv. unfold wrapped. destruct (Nat.eqb_spec t M); [|lia].
      destruct (Nat.eqb_spec u 0); [|rewrite EM; destruct (Nat.leb_spec u (3 * M - 2))]; unfold f1; rewrite iat_img by lia; do 2 f_equal; lia.
    - unfold s1 in *. destruct (Nat.eqb_spec t M); [lia|]. assert (EM : M1 = t + M + b) by (unfold M1, s1; lia). do 2 f_equal; [exact EM|].
      apply map_ext. intros im. unfold f1, f2. rewrite EM. apply img_ext. intros u v Hu Hv. unfold wrapped. destruct (Nat.eqb_spec t M); [lia|]. do 2 f_equal. unfold s1. lia. }
  rewrite R. cbn [bind].
  destruct (Z.eqb_spec (Z.of_nat l) (Z.of_nat N)) as [El|El].
  - assert (l = N) by lia. assert (r = N) by (destruct Pl; lia). unfold s2 in *. destruct (Nat.eqb_spec l N); [|lia].
    assert (EN : N1 = 3 * N - 2) by (unfold N1, s2; lia).
    rewrite (wrap_cols_of o pre _ N1 _ Hi2) by lia. replace (N1 + 2) with (l + N + r) by lia. do 2 f_equal. rewrite map_map.
    apply map_ext. intros im. unfold pad_img. apply img_ext. intros u v Hu Hv.
    rewrite <- (wrapped_reflect M t b), <- (wrapped_reflect N l r) by assumption. unfold wrapped at 2. destruct (Nat.eqb_spec l N); [|lia].
    destruct (Nat.eqb_spec v 0); [|destruct (Nat.leb_spec v N1), (Nat.leb_spec v (3 * N - 2)); try lia]; unfold f2; rewrite iat_img by lia; f_equal; f_equal; lia.
  - unfold s2 in *. destruct (Nat.eqb_spec l N); [lia|]. assert (EN : N1 = l + N + r) by (unfold N1, s2; lia). do 2 f_equal; [exact EN|].
    apply map_ext. intros im. unfold f2, pad_img. rewrite EN. apply img_ext. intros u v Hu Hv.
    rewrite (wrapped_reflect M t b) by assumption. rewrite (reflect_near N) by (destruct Pl; lia). do 2 f_equal. lia.
Qed.
End Special.

(** ** The paddings of the frontend *)
Section Sizes.
Variables (M J : Z).
Hypothesis (HJ : (0 <= J)%Z) (HM : (2 ^ J <= M)%Z).
Definition left_pad : Z := ((padded_size M J - M) / 2)%Z.
Definition right_pad : Z := ((padded_size M J - M + 1) / 2)%Z.
Lemma padded_total : padded_size M J = ((M / 2 ^ J + 2) * 2 ^ J)%Z /\ (padded_size M J - M = 2 * 2 ^ J - M mod 2 ^ J)%Z.
Proof.
  assert (0 < 2 ^ J)%Z by (apply Z.pow_pos_nonneg; lia). unfold padded_size.
  pose proof (Z.div_add M 1 (2 ^ J) ltac:(lia)) as E. rewrite Z.mul_1_l in E. rewrite E.
  pose proof (Z.div_mod M (2 ^ J)). split; nia.
Qed.
Lemma left_right : (left_pad + M + right_pad = padded_size M J /\ 2 ^ J < 2 * left_pad + 1 /\ left_pad <= right_pad <= left_pad + 1 /\ right_pad <= 2 ^ J)%Z.
Proof.
  destruct padded_total as [_ E]. unfold left_pad, right_pad. assert (H : (0 < 2 ^ J)%Z) by (apply Z.pow_pos_nonneg; lia).
  pose proof (Z.mod_pos_bound M (2 ^ J) H). clear HM HJ. generalize dependent (2 ^ J)%Z. generalize (padded_size M J). intros q D E H H0. revert H0 E. generalize (M mod D)%Z. intros. lia.
Qed.
Lemma pad_ok_frontend : pad_ok (Z.to_nat M) (Z.to_nat left_pad) (Z.to_nat right_pad).
Proof.
  destruct padded_total as [_ E]. pose proof left_right as (E1 & E2 & E3 & E4). assert (0 < 2 ^ J)%Z by (apply Z.pow_pos_nonneg; lia).
  unfold pad_ok. destruct (Z.eq_dec right_pad M) as [Er|Er]; [|lia].
  assert (M = 2 ^ J)%Z by lia. right. assert (M mod 2 ^ J = 0)%Z by (rewrite <- H0; apply Z_mod_same_full).
  unfold left_pad, right_pad in *. rewrite E in *. lia.
Qed.
End Sizes.
