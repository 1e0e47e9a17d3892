(** Property C95: compute_temporal_support and the padding that Scattering1D derives from it. *)
From Coq Require Import String Reals ZArith List Bool Lia Lra QArith Qreals.
From Coquelicot Require Import Complex.
From Verif Require Import Base NdArray ComplexOps Dft Conv1d Utils1d Utils1dProofs Core1d Frontend1d Factory1d Construct1d FilterBank1d Invariance1d Norm1d Stability1d PropFilters1d Support1d.
Import ListNotations.
Local Open Scope R_scope.

(** The filter restricted to the instants -N .. N (instant -m is at index n - m). *)
Definition truncate (N : Z) (h : list C) : list C :=
  map (fun m => if (Z.of_nat m <=? N)%Z || (Z.of_nat (length h - m) <=? N)%Z then at_ h m else RtoC 0) (seq 0 (length h)).
(** What the code leaves out of its sums: the instant n/2, or the two instants n/2 and n - n/2 when n is odd. *)
Definition middle (h : list C) : R := mass h (length h / 2) (length h - length h / 2 + 1).

Theorem C95_support_spec : forall n rows eps, (0 < n)%nat -> rows <> [] -> Forall (fun r : list C => length r = n) rows ->
  exists N, compute_temporal_support n rows eps = Ok N /\ (0 <= N <= Z.of_nat (n / 2))%Z /\
    ((exists k, (k < n / 2)%nat /\ N = (Z.of_nat k + 1)%Z /\
        (forall r, In r rows -> mass (idft r) k (n / 2) <= eps) /\
        (forall i, (i < k)%nat -> exists r, In r rows /\ eps < mass (idft r) i (n / 2))) \/
     (N = Z.of_nat (n / 2) /\ forall i, (i < n / 2)%nat -> exists r, In r rows /\ eps < mass (idft r) i (n / 2))).
Proof.
  intros n rows eps Hn Hne Hl. set (half := (n / 2)%nat) in *.
  assert (Hh : (half <= n)%nat) by (unfold half; apply Nat.div_le_upper_bound; lia).
  destruct rows as [|r0 rs]; [congruence|]. clear Hne. inversion Hl as [|r0' rs' H0 Hrs]; subst r0' rs'.
  assert (L : forall r, In r (r0 :: rs) -> length (l1_residual half r) = half /\ forall k, (k < half)%nat -> nth k (l1_residual half r) 0 = mass (idft r) k half).
  { intros r Hr. assert (length r = n) by (rewrite Forall_forall in Hl; now apply Hl). split; [apply residual_length; lia|intros k Hk; apply residual_nth; lia]. }
  destruct (column_max_spec half (map (l1_residual half) rs) (l1_residual half r0)) as [C1 C2].
  { apply L. now left. }
  { apply Forall_forall. intros q Hq. apply in_map_iff in Hq as (r & <- & Hr). apply L. now right. }
  set (cm := column_max (l1_residual half r0) (map (l1_residual half) rs)) in *.
  assert (M : forall k e, (k < half)%nat -> (nth k cm 0 <= e <-> forall r, In r (r0 :: rs) -> mass (idft r) k half <= e)).
  { intros k e Hk. rewrite (C2 k e Hk). split.
    - intros G r Hr. rewrite <- (proj2 (L r Hr) k Hk). apply G. destruct Hr as [<-|Hr]; [now left|right; now apply in_map].
    - intros G q Hq. assert (exists r, In r (r0 :: rs) /\ q = l1_residual half r) as (r & Hr & ->).
      { destruct Hq as [<-|Hq]; [exists r0; split; [now left|reflexivity]|]. apply in_map_iff in Hq as (r & <- & Hr). exists r. split; [now right|reflexivity]. }
      rewrite (proj2 (L r Hr) k Hk). now apply G. }
  assert (X : forall k, (k < half)%nat -> eps < nth k cm 0 -> exists r, In r (r0 :: rs) /\ eps < mass (idft r) k half).
  { intros k Hk Hlt. destruct (existsb (fun r => if Rlt_dec eps (mass (idft r) k half) then true else false) (r0 :: rs)) eqn:E.
    - apply existsb_exists in E as (r & Hr & E). exists r. split; [exact Hr|]. destruct (Rlt_dec eps (mass (idft r) k half)); [assumption|discriminate].
    - exfalso. assert (nth k cm 0 <= eps); [|lra]. apply (M k eps Hk). intros r Hr. apply Rnot_lt_le. intros Hc.
      rewrite <- not_true_iff_false in E. apply E. apply existsb_exists. exists r. split; [exact Hr|]. now destruct (Rlt_dec eps (mass (idft r) k half)). }
  unfold compute_temporal_support. destruct (Nat.eqb_spec n 0); [lia|]. fold half. cbn [map]. fold cm.
  pose proof (first_le_spec eps cm) as F. rewrite C1 in F. destruct (first_le eps cm) as [k|].
  - destruct F as (F1 & F2 & F3). eexists. split; [reflexivity|]. split; [lia|]. left. exists k. split; [exact F1|]. split; [reflexivity|].
    split; [now apply (M k eps F1)|]. intros i Hi. apply X; [lia|now apply F3].
  - eexists. split; [reflexivity|]. split; [lia|]. right. split; [reflexivity|]. intros i Hi. apply X; [exact Hi|now apply F].
Qed.
Print Assumptions C95_support_spec.

Lemma rsum_split a b f : rsum (a + b) f = rsum a f + rsum b (fun i => f (a + i)%nat).
Proof. induction b as [|b IH]; [rewrite Nat.add_0_r; cbn; lra|]. rewrite Nat.add_succ_r. cbn [rsum]. rewrite IH. lra. Qed.
Lemma rsum_minus n f g : rsum n g = rsum n f - rsum n (fun m => f m - g m).
Proof. induction n as [|n IH]; cbn [rsum]; [lra|]. rewrite IH. lra. Qed.
Lemma mass_tail h k half : (k <= half)%nat -> rsum half (fun m => if Nat.leb k m then Cmod (at_ h m) else 0) = mass h k half.
Proof.
  intros Hk. replace half with (k + (half - k))%nat at 1 by lia. rewrite rsum_split.
  rewrite (rsum_ext k _ (fun _ => 0)) by (intros i Hi; destruct (Nat.leb_spec k i); [lia|reflexivity]). rewrite rsum_const.
  unfold mass. rewrite (rsum_ext (half - k) _ (fun i => Cmod (at_ h (k + i)))) by (intros i Hi; destruct (Nat.leb_spec k (k + i)); [reflexivity|lia]).
  lra.
Qed.
(** The inverse DFT of a real sequence has a symmetric modulus. *)
Lemma real_symmetric w m : (forall i, snd (at_ w i) = 0) -> (0 < m < length w)%nat -> Cmod (at_ (idft w) (length w - m)) = Cmod (at_ (idft w) m).
Proof.
  intros Hw Hm. set (n := length w) in *. assert (Hn : (0 < n)%nat) by lia.
  rewrite !at_idft by lia. fold n.
  rewrite (idft_at_congr n Hn (at_ w) (Z.of_nat (n - m)) (- Z.of_nat m)).
  2:{ rewrite Nat2Z.inj_sub by lia. replace (Z.of_nat n - Z.of_nat m)%Z with (- Z.of_nat m + 1 * Z.of_nat n)%Z by lia. apply Z_mod_plus_full. }
  replace (idft_at n (at_ w) (- Z.of_nat m)) with (Cconj (idft_at n (at_ w) (Z.of_nat m))); [apply Cmod_conj|].
  unfold idft_at, Cdiv. rewrite Cconj_mult, csum_conj. f_equal.
  - apply csum_ext. intros k Hk. rewrite Cconj_mult. f_equal.
    + apply C_ext; cbn; [reflexivity|rewrite Hw; ring].
    + rewrite <- root_opp by exact Hn. f_equal. ring.
  - apply C_ext; cbn; [reflexivity|]. unfold Rdiv. ring.
Qed.

Section Error.
Variables (h : list C) (N : Z).
Let n := length h.
Let half := (n / 2)%nat.
Definition dropped (m : nat) : R := if (Z.of_nat m <=? N)%Z || (Z.of_nat (n - m) <=? N)%Z then 0 else Cmod (at_ h m).
Lemma dropped_le m : 0 <= dropped m <= Cmod (at_ h m).
Proof. unfold dropped. pose proof (Cmod_ge_0 (at_ h m)). destruct (_ || _); lra. Qed.
Lemma truncate_length : length (truncate N h) = n.
Proof. unfold truncate. now rewrite map_length, seq_length. Qed.
Lemma truncation_error x t B : length x = n -> (0 < n)%nat -> (forall i, (i < n)%nat -> Cmod (at_ x i) <= B) ->
  Cmod (cconv x h t - cconv x (truncate N h) t)%C <= B * rsum n dropped.
Proof.
  intros Hx Hn HB. set (d := map (fun m => at_ h m - at_ (truncate N h) m)%C (seq 0 n)).
  assert (Ld : length d = n) by (unfold d; now rewrite map_length, seq_length).
  replace (cconv x h t - cconv x (truncate N h) t)%C with (cconv x d t).
  - eapply Rle_trans; [apply (cconv_bound x d t B); rewrite ?Hx; assumption|].
    apply Rmult_le_compat_l; [eapply Rle_trans; [apply Cmod_ge_0|apply (HB 0%nat Hn)]|].
    right. unfold l1. rewrite Ld. rewrite (rsum_csum n (fun i => Cmod (at_ d i))). cbn [fst RtoC]. apply rsum_ext. intros m Hm.
    unfold d. rewrite at_map_seq by exact Hm. unfold truncate. fold n. rewrite at_map_seq by exact Hm.
    unfold dropped. destruct (_ || _); [replace (at_ h m - at_ h m)%C with (RtoC 0) by ring; apply Cmod_0|f_equal; ring].
  - unfold cconv. rewrite Hx. unfold Cminus. rewrite <- (Cmult_1_l (csum n (fun m => at_ x m * at_ (truncate N h) _)%C)).
    replace (- (1 * csum n (fun m => at_ x m * at_ (truncate N h) (Z.to_nat ((t - Z.of_nat m) mod Z.of_nat n))))%C)%C
      with (csum n (fun m => (- RtoC 1) * (at_ x m * at_ (truncate N h) (Z.to_nat ((t - Z.of_nat m) mod Z.of_nat n))))%C).
    + rewrite <- csum_plus. apply csum_ext. intros m Hm.
      assert (Hr : (Z.to_nat ((t - Z.of_nat m) mod Z.of_nat n) < n)%nat) by (pose proof (Z.mod_pos_bound (t - Z.of_nat m) (Z.of_nat n)); lia).
      unfold d. rewrite at_map_seq by exact Hr. unfold Cminus. ring.
    + rewrite csum_scal. ring.
Qed.
Variable k : nat.
Hypothesis Hsym : forall m, (0 < m < n)%nat -> Cmod (at_ h (n - m)) = Cmod (at_ h m).
Lemma l1_dropped : (2 <= n)%nat -> (k < half)%nat -> N = (Z.of_nat k + 1)%Z -> rsum n dropped <= 2 * mass h k half + middle h.
Proof.
  intros Hn Hk HN. assert (Hh : (2 * half <= n < 2 * half + 2)%nat).
  { unfold half. pose proof (Nat.div_mod n 2 ltac:(lia)). pose proof (Nat.mod_upper_bound n 2 ltac:(lia)). lia. }
  replace n with (half + (n - half + 1 - half) + (half - 1))%nat at 1 by lia. rewrite rsum_split, rsum_split.
  assert (B1 : rsum half dropped <= mass h k half).
  { rewrite <- mass_tail by lia. apply rsum_le. intros m Hm. destruct (Nat.leb_spec k m); [apply dropped_le|].
    unfold dropped. destruct (Z.leb_spec (Z.of_nat m) N); [cbn; lra|lia]. }
  assert (B2 : rsum (n - half + 1 - half) (fun i => dropped (half + i)) <= middle h).
  { unfold middle, mass. fold n. fold half. apply rsum_le. intros; apply dropped_le. }
  assert (B3 : rsum (half - 1) (fun i => dropped (half + (n - half + 1 - half) + i)) <= mass h k half).
  { rewrite <- mass_tail by lia.
    set (g := fun m : nat => if Nat.leb k m then Cmod (at_ h m) else 0).
    assert (E1 : rsum half g = rsum 1 g + rsum (half - 1) (fun i => g (1 + i)%nat)).
    { rewrite <- rsum_split. replace (1 + (half - 1))%nat with half by lia. reflexivity. }
    rewrite E1.
    assert (G : forall m, 0 <= g m) by (intros m; unfold g; destruct (Nat.leb k m); [apply Cmod_ge_0|lra]).
    rewrite <- (rsum_rev (half - 1) (fun i => g (1 + i)%nat)).
    assert (0 <= rsum 1 g) by (apply rsum_pos; intros; apply G).
    enough (rsum (half - 1) (fun i => dropped (half + (n - half + 1 - half) + i)) <= rsum (half - 1) (fun i => g (1 + (half - 1 - 1 - i))%nat)) by lra.
    apply rsum_le. intros i Hi. set (m := (half + (n - half + 1 - half) + i)%nat).
    assert (Em : m = (n - (1 + (half - 1 - 1 - i)))%nat) by (unfold m; lia). set (j := (1 + (half - 1 - 1 - i))%nat) in *.
    assert (Hj : (0 < j < half)%nat) by (unfold j; lia). unfold g. destruct (Nat.leb_spec k j).
    - rewrite <- (Hsym j) by lia. rewrite <- Em. apply dropped_le.
    - unfold dropped. replace (n - m)%nat with j by lia. destruct (Z.leb_spec (Z.of_nat j) N); [rewrite orb_true_r; lra|lia]. }
  lra.
Qed.
End Error.

(** The error committed on a convolution by cutting the filters at the computed support: twice the criterion, plus the mass of the
    filter at the middle of its support, which the code forgets. *)
Theorem C95_truncation_partial : forall n rows eps N w x t B, (0 < n)%nat -> 0 <= eps ->
  Forall (fun r : list C => length r = n) rows -> compute_temporal_support n rows eps = Ok N -> In w rows ->
  (forall i, snd (at_ w i) = 0) -> length x = n -> (forall i, (i < n)%nat -> Cmod (at_ x i) <= B) ->
  Cmod (cconv x (idft w) t - cconv x (truncate N (idft w)) t)%C <= (2 * eps + middle (idft w)) * B.
Proof.
  intros n rows eps N w x t B Hn He Hl EN Hw Hreal Hx HB.
  assert (Lw : length w = n) by (rewrite Forall_forall in Hl; now apply Hl).
  assert (B0 : 0 <= B) by (eapply Rle_trans; [apply Cmod_ge_0|apply (HB 0%nat Hn)]).
  assert (M0 : 0 <= middle (idft w)) by (unfold middle, mass; apply rsum_pos; intros; apply Cmod_ge_0).
  assert (Li : length (idft w) = n) by (now rewrite idft_length).
  destruct (C95_support_spec n rows eps Hn ltac:(intros E; rewrite E in Hw; exact Hw) Hl) as (N' & EN' & HN & Hcase).
  assert (N' = N) by congruence. subst N'.
  pose proof (truncation_error (idft w) N x t B ltac:(congruence) ltac:(lia) ltac:(rewrite Li; exact HB)) as T.
  eapply Rle_trans; [exact T|]. rewrite Rmult_comm. apply Rmult_le_compat_r; [exact B0|].
  destruct Hcase as [(k & Hk & Ek & Hmass & _)|(Ek & _)].
  - assert (2 <= n)%nat by (destruct n as [|[|]]; [lia|cbn in Hk; lia|lia]).
    pose proof (l1_dropped (idft w) N k) as D. rewrite Li in D.
    assert (D' : rsum n (dropped (idft w) N) <= 2 * mass (idft w) k (n / 2) + middle (idft w)).
    { apply D; try assumption. intros m Hm. rewrite <- Lw. apply real_symmetric; [exact Hreal|lia]. }
    rewrite Li. specialize (Hmass w Hw). lra.
  - rewrite Li. rewrite (rsum_ext n _ (fun _ => 0)); [rewrite rsum_const; lra|]. intros m Hm. unfold dropped. rewrite Li.
    pose proof (Nat.div_mod n 2 ltac:(lia)). pose proof (Nat.mod_upper_bound n 2 ltac:(lia)).
    destruct (Z.leb_spec (Z.of_nat m) N); [reflexivity|]. destruct (Z.leb_spec (Z.of_nat (n - m)) N); [reflexivity|lia].
Qed.
Print Assumptions C95_truncation_partial.

(** The result is determined by the two masses at the origin. *)
Lemma support_two n h eps : (4 <= n)%nat -> length h = n -> eps < mass h 0 (n / 2) -> mass h 1 (n / 2) <= eps ->
  compute_temporal_support n [dft h] eps = Ok 2%Z.
Proof.
  intros Hn Hl H0 H1. assert (Hh : (2 <= n / 2)%nat) by (apply Nat.div_le_lower_bound; lia).
  destruct (C95_support_spec n [dft h] eps) as (N & EN & _ & Hcase); [lia|discriminate|constructor; [now rewrite dft_length|constructor]|].
  rewrite EN. f_equal. destruct Hcase as [(k & Hk & -> & Hm & Hlt)|(_ & Hlt)].
  - specialize (Hm _ (or_introl eq_refl)). rewrite idft_dft_list in Hm. destruct k as [|[|k]]; [lra|reflexivity|exfalso].
    destruct (Hlt 1%nat ltac:(lia)) as (r & [<-|[]] & Hr). rewrite idft_dft_list in Hr. lra.
  - exfalso. destruct (Hlt 1%nat ltac:(lia)) as (r & [<-|[]] & Hr). rewrite idft_dft_list in Hr. lra.
Qed.

(** The support is not the smallest: for the identity filter, whose support is the single instant 0, the code answers 2. *)
Theorem C95_smallest_refuted : forall n eps, (4 <= n)%nat -> 0 <= eps < 1 ->
  exists h, length h = n /\ compute_temporal_support n [dft h] eps = Ok 2%Z /\ truncate 0 h = h.
Proof.
  intros n eps Hn He. set (h := map (fun m => if Nat.eqb m 0 then RtoC 1 else RtoC 0) (seq 0 n)).
  assert (Lh : length h = n) by (unfold h; now rewrite map_length, seq_length).
  assert (Hat : forall m, (m < n)%nat -> at_ h m = if Nat.eqb m 0 then RtoC 1 else RtoC 0) by (intros; unfold h; now rewrite at_map_seq).
  assert (Hh : (2 <= n / 2 <= n)%nat) by (split; [apply Nat.div_le_lower_bound; lia|apply Nat.div_le_upper_bound; lia]).
  assert (M1 : mass h 1 (n / 2) = 0).
  { unfold mass. rewrite (rsum_ext _ _ (fun _ => 0)); [rewrite rsum_const; lra|]. intros i Hi. rewrite Hat by lia. cbn. apply Cmod_0. }
  exists h. split; [exact Lh|]. split.
  - apply support_two; [exact Hn|exact Lh| |lra].
    assert (E : mass h 0 (n / 2) = 1 + mass h 1 (n / 2)); [|lra].
    unfold mass. replace (n / 2 - 0)%nat with (1 + (n / 2 - 1))%nat by lia. rewrite rsum_split. f_equal.
    cbn [rsum Nat.add]. rewrite Hat by lia. cbn. rewrite Cmod_1. lra.
  - apply list_ext; [rewrite truncate_length; reflexivity|]. intros m Hm. rewrite truncate_length, Lh in Hm.
    unfold truncate. rewrite at_map_seq by lia. destruct (Z.leb_spec (Z.of_nat m) 0); [reflexivity|].
    destruct (_ || _); [reflexivity|]. rewrite Hat by exact Hm. destruct (Nat.eqb_spec m 0); [lia|reflexivity].
Qed.
Print Assumptions C95_smallest_refuted.

(** Nor is the error below the criterion, even for a symmetric filter that decreases away from 0: both halves of the filter are cut,
    but only one is measured. *)
Theorem C95_bound_refuted : forall half eps, (6 <= half)%nat -> 0 < eps < 1 ->
  let n := (2 * half)%nat in
  exists h, length h = n /\ (forall m, (0 < m < n)%nat -> at_ h (n - m) = at_ h m) /\
    (forall m m', (m <= m' <= half)%nat -> Cmod (at_ h m') <= Cmod (at_ h m)) /\
    compute_temporal_support n [dft h] eps = Ok 2%Z /\
    exists x, length x = n /\ (forall i, (i < n)%nat -> Cmod (at_ x i) <= 1) /\
      eps * 1 < Cmod (cconv x h 0 - cconv x (truncate 2 h) 0)%C.
Proof.
  intros half eps Hh He n. set (c := eps / INR (half - 1)).
  assert (Hi : 5 <= INR (half - 1)) by (replace 5 with (INR 5) by (cbn; lra); apply le_INR; lia).
  assert (Hc : 0 < c < 1).
  { unfold c. split; [apply Rdiv_lt_0_compat; lra|]. apply Rmult_lt_reg_r with (INR (half - 1)); [lra|]. unfold Rdiv. rewrite Rmult_assoc, Rinv_l by lra. lra. }
  set (hr := fun m => if Nat.eqb m 0 then 1 else if Nat.eqb m half then 0 else c).
  set (h := map (fun m => RtoC (hr m)) (seq 0 n)).
  assert (Lh : length h = n) by (unfold h; now rewrite map_length, seq_length).
  assert (Hat : forall m, (m < n)%nat -> at_ h m = RtoC (hr m)) by (intros; unfold h; now rewrite at_map_seq).
  assert (Hpos : forall m, 0 <= hr m) by (intros m; unfold hr; destruct (Nat.eqb m 0), (Nat.eqb m half); lra).
  assert (Hmod : forall m, (m < n)%nat -> Cmod (at_ h m) = hr m) by (intros m Hm; rewrite Hat, Cmod_R, Rabs_pos_eq by auto; reflexivity).
  assert (En : (n / 2)%nat = half) by (unfold n; rewrite Nat.mul_comm; apply Nat.div_mul; lia).
  assert (M1 : mass h 1 half = eps).
  { unfold mass. rewrite (rsum_ext _ _ (fun _ => c)); [rewrite rsum_const; unfold c; field; lra|]. intros i Hi'. rewrite Hmod by (unfold n; lia).
    unfold hr. destruct (Nat.eqb_spec (1 + i) 0); [lia|]. destruct (Nat.eqb_spec (1 + i) half); [lia|reflexivity]. }
  exists h. split; [exact Lh|]. split; [|split; [|split]].
  - intros m Hm. rewrite !Hat by lia. f_equal. unfold hr.
    destruct (Nat.eqb_spec (n - m) 0), (Nat.eqb_spec m 0), (Nat.eqb_spec (n - m) half), (Nat.eqb_spec m half); try reflexivity; unfold n in *; lia.
  - intros m m' Hm. rewrite !Hmod by (unfold n; lia). unfold hr.
    destruct (Nat.eqb_spec m 0), (Nat.eqb_spec m' 0), (Nat.eqb_spec m half), (Nat.eqb_spec m' half); try lra; lia.
  - apply support_two; [unfold n; lia|exact Lh| |rewrite En; lra]. rewrite En.
    assert (E : mass h 0 half = 1 + mass h 1 half); [|lra].
    unfold mass. replace (half - 0)%nat with (1 + (half - 1))%nat by lia. rewrite rsum_split. f_equal.
    cbn [rsum Nat.add]. rewrite Hmod by (unfold n; lia). unfold hr. cbn [Nat.eqb]. lra.
  - exists (repeat (RtoC 1) n). assert (Lx : length (repeat (RtoC 1) n) = n) by apply repeat_length. split; [exact Lx|].
    assert (Hx : forall i, (i < n)%nat -> at_ (repeat (RtoC 1) n) i = RtoC 1).
    { intros i Hi'. unfold at_. rewrite (nth_indep _ _ (RtoC 1)) by now rewrite repeat_length. apply nth_repeat. }
    split; [intros i Hi'; rewrite Hx by exact Hi'; rewrite Cmod_1; lra|].
    rewrite !(cconv_const (RtoC 1)) by (rewrite ?truncate_length, ?Lx, ?Lh; try reflexivity; try exact Hx; unfold n; lia).
    rewrite truncate_length, Lh. set (cut := fun m : nat => if (Z.of_nat m <=? 2)%Z || (Z.of_nat (n - m) <=? 2)%Z then 0 else hr m).
    replace (RtoC 1 * csum n (at_ h) - RtoC 1 * csum n (at_ (truncate 2 h)))%C with (RtoC (rsum n cut)).
    + rewrite Cmod_R, Rabs_pos_eq by (apply rsum_pos; intros m _; unfold cut; destruct (_ || _); [lra|apply Hpos]).
      assert (E : rsum n cut = INR (2 * (half - 3)) * c).
      { replace n with (3 + ((half - 3) + (1 + ((half - 3) + 2))))%nat at 1 by (unfold n; lia). rewrite !rsum_split.
        rewrite (rsum_ext (half - 3) (fun i => cut (3 + i)%nat) (fun _ => c)).
        2:{ intros i Hi'. unfold cut, hr. destruct (Z.leb_spec (Z.of_nat (3 + i)) 2); [lia|]. destruct (Z.leb_spec (Z.of_nat (n - (3 + i))) 2); [unfold n in *; lia|].
            cbn [orb]. destruct (Nat.eqb_spec (3 + i) 0); [lia|]. destruct (Nat.eqb_spec (3 + i) half); [lia|reflexivity]. }
        rewrite (rsum_ext (half - 3) (fun i => cut (3 + (half - 3 + (1 + i)))%nat) (fun _ => c)).
        2:{ intros i Hi'. unfold cut, hr. set (m := (3 + (half - 3 + (1 + i)))%nat). assert (m = (half + 1 + i)%nat) by (unfold m; lia).
            destruct (Z.leb_spec (Z.of_nat m) 2); [lia|]. destruct (Z.leb_spec (Z.of_nat (n - m)) 2); [unfold n in *; lia|].
            cbn [orb]. destruct (Nat.eqb_spec m 0); [lia|]. destruct (Nat.eqb_spec m half); [lia|reflexivity]. }
        rewrite !rsum_const. cbn [rsum].
        assert (Z0 : cut 0%nat = 0) by reflexivity. assert (Z1 : cut 1%nat = 0) by reflexivity. assert (Z2 : cut 2%nat = 0) by reflexivity.
        assert (Z3 : cut (3 + (half - 3 + 0))%nat = 0).
        { unfold cut, hr. destruct (_ || _); [reflexivity|]. destruct (Nat.eqb_spec (3 + (half - 3 + 0)) 0); [lia|]. destruct (Nat.eqb_spec (3 + (half - 3 + 0)) half); [reflexivity|lia]. }
        assert (Z4 : forall j, (n - 2 <= j)%nat -> cut j = 0).
        { intros j Hj. unfold cut. destruct (Z.leb_spec (Z.of_nat (n - j)) 2); [rewrite orb_true_r; reflexivity|lia]. }
        rewrite Z0, Z1, Z2, Z3, !Z4 by (unfold n; lia). rewrite mult_INR. cbn [INR]. lra. }
      assert (Ea : INR (half - 1) = INR (half - 3) + 2) by (replace (half - 1)%nat with (half - 3 + 2)%nat by lia; rewrite plus_INR; cbn; lra).
      assert (Ec : c * (INR (half - 3) + 2) = eps) by (unfold c; rewrite Ea in *; field; lra).
      rewrite E, mult_INR. change (INR 2) with 2. rewrite Ea in Hi. rewrite <- Ec. nra.
    + rewrite (csum_ext n (at_ (truncate 2 h)) (fun m => RtoC (hr m - cut m))).
      * rewrite (csum_ext n (at_ h) (fun m => RtoC (hr m))) by (intros; now apply Hat). rewrite !Cmult_1_l, !rsum_csum, <- RtoC_minus. f_equal.
        apply rsum_minus.
      * intros m Hm. unfold truncate. rewrite Lh, at_map_seq by exact Hm. unfold cut. destruct (_ || _); [rewrite Hat by exact Hm; f_equal; lra|f_equal; lra].
Qed.
Print Assumptions C95_bound_refuted.

Local Open Scope Z_scope.
(** The support that Scattering1D computes exists, is non-negative and at most half the signal; the signal is padded by three times
    the support on each side unless the padded length is the largest power of two that reflection padding allows. *)
Theorem C95_padding : forall p out s N T,
  Scattering1D support1d p out = Ok s -> N_input_of (p_shape p) = Ok N -> 1 <= N -> T_of (p_T p) (p_J p) N = Ok T ->
  compute_temporal_support (Z.to_nat N) [nd_data (gauss_1d (Z.to_nat N) (sigma0 / Q2R T))] (1 / 1000) = Ok (support1d N T) /\
  0 <= support1d N T <= N / 2 /\
  (3 * support1d N T <= s_pad_left s /\ 3 * support1d N T <= s_pad_right s \/
   exists k, 0 <= k /\ s_pad_left s + N + s_pad_right s = 2 ^ k /\ 3 * N - 2 < 2 ^ (k + 1)).
Proof.
  intros p out s N T H EN HN ET.
  assert (S0 : compute_temporal_support (Z.to_nat N) [nd_data (gauss_1d (Z.to_nat N) (sigma0 / Q2R T))] (1 / 1000) = Ok (support1d N T) /\ 0 <= support1d N T <= N / 2).
  { destruct (C95_support_spec (Z.to_nat N) [nd_data (gauss_1d (Z.to_nat N) (sigma0 / Q2R T))] (1 / 1000)) as (v & Ev & Hv & _).
    - lia.
    - discriminate.
    - constructor; [|constructor]. unfold gauss_1d, morlet_1d. cbn [nd_data]. now rewrite map_length, seq_length.
    - unfold support1d. rewrite Ev. split; [reflexivity|]. rewrite Nat2Z.inj_div, Z2Nat.id in Hv by lia. exact Hv. }
  destruct S0 as [S0 S1]. split; [exact S0|]. split; [exact S1|].
  apply new_inv in H. destruct H as (b & Qs & T' & l2T & phi & psi1s & psi2s & Hb & _ & _ & _ & _ & _ & ->). cbn [s_pad_left s_pad_right].
  destruct (build_inv _ _ _ Hb) as (st & T'' & l & r & EN' & _ & ET' & EP & Eb). assert (EbN : b_N b = N) by congruence. rewrite EbN in *.
  assert (T'' = T) by congruence. subst T''. apply compute_padding_ok in EP. rewrite Eb. cbn [b_left b_right].
  unfold N_padded_of, J_pad_of in EP. set (m := 3 * support1d N T) in *.
  assert (P1 : 1 <= 3 * N - 2) by lia.
  destruct (Z.le_gt_cases (Z.log2_up (N + 2 * m)) (Z.log2 (3 * N - 2))) as [Hle|Hgt].
  - rewrite Z.min_l in EP by exact Hle. left.
    assert (N + 2 * m <= 2 ^ Z.log2_up (N + 2 * m)).
    { destruct (Z.eq_dec (N + 2 * m) 1) as [E|E]; [rewrite E; cbn; lia|]. apply Z.log2_log2_up_spec. lia. }
    lia.
  - rewrite Z.min_r in EP by lia. right. exists (Z.log2 (3 * N - 2)). split; [apply Z.log2_nonneg|].
    pose proof (Z.log2_spec (3 * N - 2) ltac:(lia)) as [L1 L2]. rewrite <- Z.add_1_r in L2. split; [lia|exact L2].
Qed.
Print Assumptions C95_padding.

(** The low-pass filter of Scattering1D meets the hypotheses of [C95_truncation_partial], for every length and bandwidth. *)
Example C95_instance : forall (n : nat) sigma N x t B, (0 < n)%nat ->
  compute_temporal_support n [nd_data (gauss_1d n sigma)] (1 / 1000) = Ok N ->
  length x = n -> (forall i, (i < n)%nat -> (Cmod (at_ x i) <= B)%R) ->
  let h := idft (nd_data (gauss_1d n sigma)) in
  (Cmod (cconv x h t - cconv x (truncate N h) t)%C <= (2 * (1 / 1000) + middle h) * B)%R.
Proof.
  intros n sigma N x t B Hn EN Hx HB h.
  assert (L : length (nd_data (gauss_1d n sigma)) = n) by (unfold gauss_1d, morlet_1d; cbn [nd_data]; now rewrite map_length, seq_length).
  apply (C95_truncation_partial n [nd_data (gauss_1d n sigma)] (1 / 1000)); try assumption; [lra|now constructor|now left|].
  intros i. destruct (Nat.lt_ge_cases i n) as [Hi|Hi].
  - unfold gauss_1d, morlet_1d. cbn [nd_data]. rewrite at_map_seq by exact Hi. reflexivity.
  - rewrite at_over by lia. reflexivity.
Qed.

(** The actual support satisfies the only hypothesis that the other theorems make about it. *)
Theorem support1d_nonneg : forall N T, 0 <= support1d N T.
Proof.
  intros N T. unfold support1d. destruct (Nat.eq_dec (Z.to_nat N) 0) as [E|E]; [rewrite E; cbn; lia|].
  destruct (C95_support_spec (Z.to_nat N) [nd_data (gauss_1d (Z.to_nat N) (sigma0 / Q2R T))] (1 / 1000)) as (v & -> & Hv & _); try lia; try discriminate.
  constructor; [|constructor]. unfold gauss_1d, morlet_1d. cbn [nd_data]. now rewrite map_length, seq_length.
Qed.
Print Assumptions support1d_nonneg.
Example C95_padding_instance : forall J N q, 0 <= J -> 1 <= q -> 2 ^ J <= N ->
  exists s, Scattering1D support1d (mk_params J N (QInt q) TNone SNone 2) "array" = Ok s.
Proof. intros J N q HJ Hq HN. apply constructor_instance; try assumption. apply support1d_nonneg. Qed.
