(** Every coefficient of the 2-D transform from its label, and the laws these values follow. *)
From Coq Require Import String Reals ZArith List Lia Lra Arith Bool.
From Coquelicot Require Import Coquelicot.
From Verif Require Import Base BaseProofs NdArray NdProofs Backend Utils1dProofs Rows1d ComplexOps Dft Conv1d StackProofs Backend2d Core2d FilterBank2d Frontend2d Images Rows2d
  Construct1d Pad2d Eval2d Dft2 Value2d Conv2d Keys2d.
Import ListNotations.
Local Open Scope nat_scope.

(** The coefficient labelled by scales [js] and angles [ts], of a padded image [x] of [M x N] pixels. *)
Definition value2 (M N : nat) (J L : Z) (js ts : list Z) (x : list C) : list C :=
  match js, ts with
  | [], _ => S0_val M N J x
  | [j1], t1 :: _ => S1_val M N J L j1 t1 x
  | j1 :: j2 :: _, t1 :: t2 :: _ => S2_val M N J L j1 t1 j2 t2 x
  | _, _ => []
  end.
(** Labels of paths. *)
Definition label2 (J L : Z) (js ts : list Z) : Prop :=
  (js = [] /\ ts = []) \/
  (exists j t, js = [j] /\ ts = [t] /\ (0 <= j < J)%Z /\ (0 <= t < L)%Z) \/
  (exists j1 t1 j2 t2, js = [j1; j2] /\ ts = [t1; t2] /\ (0 <= j1 < j2)%Z /\ (j2 < J)%Z /\ (0 <= t1 < L)%Z /\ (0 <= t2 < L)%Z).

Section Paths.
Variables (M N : nat) (J L : Z).
Hypothesis (HJ : (1 <= J)%Z) (HM : 0 < M) (HN : 0 < N) (DM : Nat.divide (p2 J) M) (DN : Nat.divide (p2 J) N).
Notation phi := (fst (filter_bank M N J L)).
Notation psi := (snd (filter_bank M N J L)).
Lemma enum_bank np : In np (enumerate psi) -> exists j t, (0 <= j < J)%Z /\ (0 <= t < L)%Z /\ snd np = psi_2d M N J L j t.
Proof. destruct np as [i f]. intros H. apply In_enumerate in H. apply filter_bank_In. cbn. eapply nth_error_In, H. Qed.
Lemma path_value pre ims mo q : imgs_ok pre M N ims -> In q (all_paths cops J phi psi M N pre ims mo) ->
  label2 J L (r_j q) (r_theta q) /\ r_coef q = of_imgs Real pre (M / p2 J - 2) (N / p2 J - 2) (map (value2 M N J L (r_j q) (r_theta q)) ims).
Proof.
  intros [_ Hi] [<-|Hq].
  - cbn [path0 r_coef r_j r_theta]. split; [left; auto|]. f_equal. apply map_ext_in. intros im Him. rewrite Forall_forall in Hi. apply S0_value; try assumption. now apply Hi.
  - apply in_app_iff in Hq as [Hq|Hq].
    + apply in_map_iff in Hq as (np & <- & Hn). destruct (enum_bank np Hn) as (j & t & Hj & Ht & E). cbn [path1 r_coef r_j r_theta]. rewrite E. cbn [psi_2d g_j g_theta].
      split; [right; left; exists j, t; auto|]. f_equal. apply map_ext_in. intros im Him. rewrite Forall_forall in Hi. cbn [value2]. apply S1_value; try assumption. now apply Hi.
    + destruct (mo <? 2)%Z; [destruct Hq|]. apply in_flat_map in Hq as (np & Hn & Hq). apply in_map_iff in Hq as (np' & <- & Hn'). apply filter_In in Hn' as [Hn' Hlt].
      destruct (enum_bank np Hn) as (j & t & Hj & Ht & E). destruct (enum_bank np' Hn') as (j' & t' & Hj' & Ht' & E').
      unfold later in Hlt. rewrite E, E' in Hlt. cbn [psi_2d g_j] in Hlt. apply Z.ltb_lt in Hlt.
      cbn [path12 r_coef r_j r_theta]. rewrite E, E'. cbn [psi_2d g_j g_theta]. split; [right; right; exists j, t, j', t'; repeat split; try reflexivity; lia|].
      f_equal. apply map_ext_in. intros im Him. rewrite Forall_forall in Hi. cbn [value2]. apply S2_value; try assumption; try lia. now apply Hi.
Qed.
End Paths.

(** ** Laws *)
Section Laws.
Variables (M N : nat) (J L : Z).
Hypothesis (HJ : (1 <= J)%Z) (HM : 0 < M) (HN : 0 < N) (DM : Nat.divide (p2 J) M) (DN : Nat.divide (p2 J) N).
Lemma P_p2 k : P k = p2 k.
Proof. reflexivity. Qed.
Lemma divs (j : Z) : (0 <= j <= J)%Z -> Nat.divide (p2 j) M /\ Nat.divide (p2 j) N /\ 0 < M / p2 j /\ 0 < N / p2 j.
Proof.
  intros Hj. assert (D1 := divide_le j J M Hj DM). assert (D2 := divide_le j J N Hj DN). repeat split; try assumption; now apply div_p2_pos.
Qed.
Lemma sizes (j : Z) : (0 <= j <= J)%Z -> M / p2 j / p2 (J - j) = M / p2 J /\ N / p2 j / p2 (J - j) = N / p2 J.
Proof. intros Hj. rewrite !div_div_p2 by lia. now replace (j + (J - j))%Z with J by lia. Qed.
Lemma value2_length js ts x : label2 J L js ts -> length (value2 M N J L js ts x) = (M / p2 J - 2) * (N / p2 J - 2).
Proof.
  intros [(-> & ->)|[(j & t & -> & -> & Hj & Ht)|(j1 & t1 & j2 & t2 & -> & -> & H1 & H2 & Ht1 & Ht2)]]; cbn [value2].
  - unfold S0_val, sampled_lowpass2. apply img_length.
  - unfold S1_val, sampled_lowpass2. rewrite img_length. change P with p2. destruct (sizes j ltac:(lia)) as [-> ->]. reflexivity.
  - unfold S2_val, sampled_lowpass2. rewrite img_length. change P with p2. destruct (sizes j2 ltac:(lia)) as [-> ->]. reflexivity.
Qed.
(** Homogeneity. *)
Lemma value2_scal js ts c x : label2 J L js ts -> length x = M * N ->
  value2 M N J L js ts (map (Cmult (RtoC c)) x) = map (Cmult (RtoC (match js with [] => c | _ => Rabs c end))) (value2 M N J L js ts x).
Proof.
  intros Hl Hx. destruct Hl as [(-> & ->)|[(j & t & -> & -> & Hj & Ht)|(j1 & t1 & j2 & t2 & -> & -> & H1 & H2 & Ht1 & Ht2)]]; cbn [value2].
  - now apply lowpass2_scal.
  - unfold S1_val, U1_val. rewrite modulus2_scal by exact Hx. apply lowpass2_scal. apply img_length.
  - unfold S2_val, U2_val, U1_val. rewrite modulus2_scal by exact Hx. rewrite modulus2_scal by apply img_length. rewrite Rabs_Rabsolu. apply lowpass2_scal.
    unfold sampled_modulus2. rewrite img_length. change P with p2. rewrite !div_div_p2 by lia. now replace (j1 + (j2 - j1))%Z with j2 by lia.
Qed.
(** Adding a constant does not change the coefficients of positive order. *)
Lemma value2_add_const js ts c x : (1 <= L)%Z -> label2 J L js ts -> js <> [] -> length x = M * N ->
  value2 M N J L js ts (map (Cplus c) x) = value2 M N J L js ts x.
Proof.
  intros HL Hl Hne Hx. assert (G : forall j t, (0 <= j)%Z -> U1_val M N L j t (map (Cplus c) x) = U1_val M N L j t x).
  { intros j t Hj. unfold U1_val. apply modulus2_add_const; try assumption. now apply psi_hat_0. }
  destruct Hl as [(-> & ->)|[(j & t & -> & -> & Hj & Ht)|(j1 & t1 & j2 & t2 & -> & -> & H1 & H2 & Ht1 & Ht2)]]; cbn [value2]; [contradiction| |].
  - unfold S1_val. now rewrite G by lia.
  - unfold S2_val, U2_val. now rewrite G by lia.
Qed.
Lemma modulus2_zero m n x w r : (forall a b, a < m -> b < n -> px n x a b = RtoC 0) -> forall u v, u < m / r -> v < n / r -> px (n / r) (sampled_modulus2 m n x w r) u v = RtoC 0.
Proof. intros H u v Hu Hv. unfold sampled_modulus2. rewrite px_img by assumption. rewrite conv2_0 by exact H. now rewrite Cmod_0. Qed.
Lemma img_const m n (f : nat -> nat -> C) (c : C) : (forall u v, u < m -> v < n -> f u v = c) -> img m n f = repeat c (m * n).
Proof.
  intros H. rewrite (img_ext m n f (fun _ _ => c)) by exact H. unfold img. generalize (m * n) at 1 2. intros k. rewrite <- (seq_length k 0) at 2.
  generalize (seq 0 k). intros l. induction l as [|a l IH]; [reflexivity|]. cbn [map repeat length]. now f_equal.
Qed.
Lemma lowpass2_zero m n x w r : (forall a b, a < m -> b < n -> px n x a b = RtoC 0) -> sampled_lowpass2 m n x w r = repeat (RtoC 0) ((m / r - 2) * (n / r - 2)).
Proof. intros H. unfold sampled_lowpass2. apply img_const. intros u v _ _. now rewrite conv2_0 by exact H. Qed.
(** A constant image has no coefficient of positive order. *)
Lemma px_repeat n c k u v : u * n + v < k -> px n (repeat c k) u v = c.
Proof. intros H. unfold px, iat. rewrite (nth_indep _ _ c) by now rewrite repeat_length. apply nth_repeat. Qed.
Lemma value2_const js ts c : (1 <= L)%Z -> label2 J L js ts -> js <> [] ->
  value2 M N J L js ts (repeat c (M * N)) = repeat (RtoC 0) ((M / p2 J - 2) * (N / p2 J - 2)).
Proof.
  intros HL Hl Hne. replace (repeat c (M * N)) with (map (Cplus c) (repeat (RtoC 0) (M * N))).
  2:{ induction (M * N) as [|k IH]; [reflexivity|]. cbn [repeat map]. rewrite IH. f_equal. ring. }
  rewrite value2_add_const by first [assumption|apply repeat_length].
  assert (Z0 : forall a b, a < M -> b < N -> px N (repeat (RtoC 0) (M * N)) a b = RtoC 0) by (intros a b Ha Hb; apply px_repeat; nia).
  destruct Hl as [(-> & ->)|[(j & t & -> & -> & Hj & Ht)|(j1 & t1 & j2 & t2 & -> & -> & H1 & H2 & Ht1 & Ht2)]]; cbn [value2]; [contradiction| |].
  - unfold S1_val, U1_val. rewrite lowpass2_zero; [|now apply modulus2_zero]. change P with p2. destruct (sizes j ltac:(lia)) as [-> ->]. reflexivity.
  - unfold S2_val, U2_val, U1_val. change P with p2. replace (M / p2 j2) with (M / p2 j1 / p2 (j2 - j1)) by (rewrite div_div_p2 by lia; f_equal; f_equal; lia).
    replace (N / p2 j2) with (N / p2 j1 / p2 (j2 - j1)) by (rewrite div_div_p2 by lia; f_equal; f_equal; lia).
    rewrite lowpass2_zero; [|apply modulus2_zero; now apply modulus2_zero]. rewrite !div_div_p2 by lia.
    replace (j1 + (j2 - j1 + (J - j2)))%Z with J by lia. reflexivity.
Qed.
(** Translation. *)
Lemma Zp2_split a b : (0 <= a)%Z -> (0 <= b)%Z -> Z.of_nat (p2 (a + b)) = (Z.of_nat (p2 a) * Z.of_nat (p2 b))%Z.
Proof. intros. rewrite p2_add by assumption. lia. Qed.
Lemma U1_rot j t d e x : (0 <= j <= J)%Z ->
  U1_val M N L j t (rot2 M N (Z.of_nat (p2 J) * d) (Z.of_nat (p2 J) * e) x) =
  rot2 (M / p2 j) (N / p2 j) (Z.of_nat (p2 (J - j)) * d) (Z.of_nat (p2 (J - j)) * e) (U1_val M N L j t x).
Proof.
  intros Hj. unfold U1_val. change P with p2. destruct (divs j Hj) as (D1 & D2 & _ & _). rewrite <- modulus2_rot by first [assumption|apply p2_pos].
  do 2 f_equal; rewrite Z.mul_assoc, <- Zp2_split by lia; do 3 f_equal; lia.
Qed.
Lemma value2_rot js ts d e x u v : label2 J L js ts -> length x = M * N ->
  let m := M / p2 J - 2 in let n := N / p2 J - 2 in
  u < m -> v < n -> (0 <= Z.of_nat u - d < Z.of_nat m)%Z -> (0 <= Z.of_nat v - e < Z.of_nat n)%Z ->
  px n (value2 M N J L js ts (rot2 M N (Z.of_nat (p2 J) * d) (Z.of_nat (p2 J) * e) x)) u v =
  px n (value2 M N J L js ts x) (Z.to_nat (Z.of_nat u - d)) (Z.to_nat (Z.of_nat v - e)).
Proof.
  intros Hl Hx m n Hu Hv Hd He. unfold m, n in *. clear m n.
  destruct Hl as [(-> & ->)|[(j & t & -> & -> & Hj & Ht)|(j1 & t1 & j2 & t2 & -> & -> & H1 & H2 & Ht1 & Ht2)]]; cbn [value2].
  - now apply lowpass2_rot.
  - unfold S1_val. rewrite U1_rot by lia. change P with p2. destruct (sizes j ltac:(lia)) as [E1 E2]. destruct (divs j ltac:(lia)) as (_ & _ & P1 & P2).
    rewrite <- E1 in Hu, Hd. rewrite <- E2 in *. apply lowpass2_rot; assumption.
  - unfold S2_val. destruct (sizes j2 ltac:(lia)) as [E1 E2]. destruct (divs j2 ltac:(lia)) as (_ & _ & P1 & P2). destruct (divs j1 ltac:(lia)) as (_ & _ & P3 & P4).
    assert (G : U2_val M N L j1 t1 j2 t2 (rot2 M N (Z.of_nat (p2 J) * d) (Z.of_nat (p2 J) * e) x) =
      rot2 (M / p2 j2) (N / p2 j2) (Z.of_nat (p2 (J - j2)) * d) (Z.of_nat (p2 (J - j2)) * e) (U2_val M N L j1 t1 j2 t2 x)).
    { unfold U2_val. rewrite U1_rot by lia. change P with p2.
      replace (J - j1)%Z with ((j2 - j1) + (J - j2))%Z by lia. rewrite !Zp2_split, <- !Z.mul_assoc by lia.
      rewrite modulus2_rot.
      - rewrite !div_div_p2 by lia. replace (j1 + (j2 - j1))%Z with j2 by lia. reflexivity.
      - apply p2_pos.
      - exact P3.
      - exact P4.
      - apply divide_div; [lia|]. apply (divide_le j2 J); [lia|exact DM].
      - apply divide_div; [lia|]. apply (divide_le j2 J); [lia|exact DN]. }
    rewrite G. change P with p2. rewrite <- E1 in Hu, Hd. rewrite <- E2 in *. apply lowpass2_rot; assumption.
Qed.
End Laws.
