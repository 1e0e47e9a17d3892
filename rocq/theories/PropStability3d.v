(** Property C91: stability of HarmonicScattering3D: Lipschitz for powers q >= 1, Hoelder of exponent q for 0 < q <= 1, with explicit constants. *)
From Coq Require Import String Reals ZArith List Bool Arith Lia Lra.
From Coquelicot Require Import Complex.
From Verif Require Import Base BaseProofs NdArray NdProofs StackProofs Backend Backend2d Images ComplexOps Dft Conv1d Dft2 Mats
  Backend3d Core3d FilterBank3d Frontend3d Dft3 Rows3d Eval3d Path3d PropScat3d PropValues3d.
Import ListNotations.
Local Open Scope R_scope.

(** ** Powers *)
Lemma rpow_O q : q = 0 -> forall x, 0 <= x -> rpow x q = 1.
Proof.
  intros -> x Hx. unfold rpow. destruct (Rlt_dec 0 x) as [H|H]; [now apply Rpower_O|]. destruct (Req_EM_T 0 0); lra.
Qed.
Lemma rpow_le_l x y q : 0 <= q -> 0 <= x <= y -> rpow x q <= rpow y q.
Proof.
  intros Hq [Hx Hxy]. destruct (Req_dec q 0) as [E|E]; [rewrite !rpow_O by lra; lra|]. destruct (Req_dec x 0) as [->|Ex].
  - rewrite rpow_0 by lra. apply rpow_nonneg.
  - rewrite !rpow_pos by lra. unfold Rpower. assert (ln x <= ln y) by (destruct (Req_dec x y) as [->|]; [lra|left; apply ln_increasing; lra]).
    assert (q * ln x <= q * ln y) by (apply Rmult_le_compat_l; lra). destruct (Req_dec (q * ln x) (q * ln y)) as [->|]; [lra|]. left. apply exp_increasing. lra.
Qed.
Lemma rpow_ge_id s q : 0 <= s <= 1 -> 0 < q <= 1 -> s <= rpow s q.
Proof.
  intros [Hs Hs1] [Hq Hq1]. destruct (Req_dec s 0) as [->|E]; [rewrite rpow_0 by lra; lra|]. rewrite rpow_pos by lra. unfold Rpower.
  rewrite <- (exp_ln s) at 1 by lra. assert (ln s <= 0) by (rewrite <- ln_1; destruct (Req_dec s 1) as [->|]; [lra|left; apply ln_increasing; lra]).
  assert (ln s <= q * ln s) by nra. destruct (Req_dec (ln s) (q * ln s)) as [<-|]; [lra|]. left. apply exp_increasing. lra.
Qed.
Lemma rpow_holder_le a b q : 0 <= b <= a -> 0 < q <= 1 -> rpow a q - rpow b q <= rpow (a - b) q.
Proof.
  intros [Hb Hab] Hq. destruct (Req_dec a 0) as [->|Ea].
  - replace b with 0 by lra. rewrite Rminus_0_r, rpow_0 by lra. lra.
  - assert (P : 0 < a) by lra. assert (I : 0 < / a) by now apply Rinv_0_lt_compat.
    assert (S : 0 <= b / a <= 1). { split; [apply Rmult_le_pos; lra|]. apply (Rmult_le_reg_r a); [exact P|]. unfold Rdiv. rewrite Rmult_assoc, Rinv_l; lra. }
    pose proof (rpow_ge_id (b / a) q S Hq) as H1. pose proof (rpow_ge_id (1 - b / a) q ltac:(lra) Hq) as H2.
    replace (rpow b q) with (rpow (a * (b / a)) q) by (f_equal; field; lra). replace (rpow (a - b) q) with (rpow (a * (1 - b / a)) q) by (f_equal; field; lra).
    rewrite !rpow_mult by lra. pose proof (rpow_nonneg a q). nra.
Qed.
Lemma rpow_holder a b q : 0 <= a -> 0 <= b -> 0 < q <= 1 -> Rabs (rpow a q - rpow b q) <= rpow (Rabs (a - b)) q.
Proof.
  intros Ha Hb Hq. destruct (Rle_dec b a) as [H|H].
  - rewrite (Rabs_pos_eq (a - b)) by lra. pose proof (rpow_le_l b a q ltac:(lra) ltac:(lra)). rewrite Rabs_pos_eq by lra. apply rpow_holder_le; [lra|exact Hq].
  - rewrite (Rabs_minus_sym a b), (Rabs_pos_eq (b - a)) by lra. pose proof (rpow_le_l a b q ltac:(lra) ltac:(lra)). rewrite Rabs_minus_sym, Rabs_pos_eq by lra.
    apply rpow_holder_le; [lra|exact Hq].
Qed.
Lemma rpow_lipschitz_le a b K q : 0 <= b <= a -> a <= K -> 1 <= q -> rpow a q - rpow b q <= q * rpow K (q - 1) * (a - b).
Proof.
  intros [Hb Hab] HK Hq. pose proof (rpow_nonneg K (q - 1)) as HR. destruct (Req_dec a b) as [->|Ne]; [lra|]. destruct (Req_dec b 0) as [->|Eb].
  - rewrite (rpow_0 q) by lra. rewrite (rpow_pos a) by lra. replace q with ((q - 1) + 1) at 1 by ring. rewrite Rpower_plus, Rpower_1 by lra.
    rewrite <- (rpow_pos a) by lra. pose proof (rpow_le_l a K (q - 1) ltac:(lra) ltac:(lra)). rewrite !Rminus_0_r. apply Rmult_le_compat_r; [lra|]. nra.
  - rewrite (rpow_pos a q), (rpow_pos b q) by lra.
    destruct (MVT_cor2 (fun x => Rpower x q) (fun x => q * Rpower x (q - 1)) b a ltac:(lra)) as (c & E & Hc).
    { intros x Hx. apply derivable_pt_lim_power. lra. }
    rewrite E. apply Rmult_le_compat_r; [lra|]. apply Rmult_le_compat_l; [lra|]. rewrite <- (rpow_pos c) by lra. apply rpow_le_l; lra.
Qed.
Lemma rpow_lipschitz a b K q : 0 <= a <= K -> 0 <= b <= K -> 1 <= q -> Rabs (rpow a q - rpow b q) <= q * rpow K (q - 1) * Rabs (a - b).
Proof.
  intros Ha Hb Hq. destruct (Rle_dec b a) as [H|H].
  - rewrite (Rabs_pos_eq (a - b)) by lra. pose proof (rpow_le_l b a q ltac:(lra) ltac:(lra)). rewrite Rabs_pos_eq by lra. apply rpow_lipschitz_le; lra.
  - rewrite (Rabs_minus_sym a b), (Rabs_pos_eq (b - a)) by lra. pose proof (rpow_le_l a b q ltac:(lra) ltac:(lra)). rewrite Rabs_minus_sym, Rabs_pos_eq by lra.
    apply rpow_lipschitz_le; lra.
Qed.

(** ** Euclidean norms *)
Definition norm_of (l : list R) : R := sqrt (fold_right Rplus 0 (map (fun x => x ^ 2) l)).
Lemma squares_nonneg l : 0 <= fold_right Rplus 0 (map (fun x => x ^ 2) l).
Proof. induction l as [|x l IH]; cbn [map fold_right]; [lra|]. pose proof (pow2_ge_0 x). lra. Qed.
Lemma norm_of_cons x l : norm_of (x :: l) = Cmod (x, norm_of l).
Proof. unfold norm_of, Cmod. cbn [map fold_right fst snd]. rewrite (pow2_sqrt _ (squares_nonneg l)). reflexivity. Qed.
Lemma norm_of_pos l : 0 <= norm_of l.
Proof. apply sqrt_pos. Qed.
Lemma Cmod_mono a b a' b' : 0 <= a <= a' -> 0 <= b <= b' -> Cmod (a, b) <= Cmod (a', b').
Proof. intros Ha Hb. unfold Cmod. cbn [fst snd]. apply sqrt_le_1_alt. nra. Qed.
Lemma norm_of_le {A} (f g h : A -> R) D L : 0 <= D -> (forall i, 0 <= f i /\ 0 <= g i /\ 0 <= h i /\ f i <= g i + D * h i) ->
  norm_of (map f L) <= norm_of (map g L) + D * norm_of (map h L).
Proof.
  intros HD H. induction L as [|i L IH].
  - unfold norm_of. cbn. rewrite sqrt_0. lra.
  - cbn [map]. rewrite !norm_of_cons. destruct (H i) as (Hf & Hg & Hh & Hi).
    pose proof (norm_of_pos (map f L)). pose proof (norm_of_pos (map g L)). pose proof (norm_of_pos (map h L)).
    eapply Rle_trans; [apply (Cmod_mono _ _ (g i + D * h i) (norm_of (map g L) + D * norm_of (map h L))); split; assumption|].
    set (u := ((g i, norm_of (map g L)) : C)). set (w := ((h i, norm_of (map h L)) : C)).
    match goal with |- Cmod ?z <= _ => replace z with (u + RtoC D * w)%C end.
    2:{ unfold u, w, Cplus, Cmult, RtoC. cbn [fst snd]. f_equal; ring. }
    eapply Rle_trans; [apply Cmod_triangle|]. rewrite Cmod_mult, Cmod_R, (Rabs_pos_eq D) by exact HD. lra.
Qed.

(** ** Volumes *)
Section Size.
Variables (M N D : nat).
Hypothesis (HM : (0 < M)%nat) (HN : (0 < N)%nat) (HD : (0 < D)%nat).
(** The sum of the moduli of the voxels. *)
Definition l1_3 (h : list C) : R := Re (csum3 M N D (fun a b c => RtoC (Cmod (vox N D h a b c)))).
Definition close3 (B : R) (x y : list C) : Prop := forall a b c, (a < M)%nat -> (b < N)%nat -> (c < D)%nat -> Cmod (vox N D x a b c - vox N D y a b c)%C <= B.

Lemma csum_sub n f g : (csum n f - csum n g)%C = csum n (fun i => f i - g i)%C.
Proof. induction n as [|n IH]; cbn [csum]; [ring|]. rewrite <- IH. ring. Qed.
Lemma Re_add (z z' : C) : Re (z + z')%C = Re z + Re z'.
Proof. reflexivity. Qed.
Lemma Re_csum_le n f g : (forall i, (i < n)%nat -> Re (f i) <= Re (g i)) -> Re (csum n f) <= Re (csum n g).
Proof. induction n as [|n IH]; intros H; cbn [csum]; [cbn; lra|]. specialize (IH (fun i Hi => H i ltac:(lia))). specialize (H n ltac:(lia)). rewrite !Re_add. lra. Qed.
Lemma Cmod_csum_le n f : Cmod (csum n f) <= Re (csum n (fun i => RtoC (Cmod (f i)))).
Proof. induction n as [|n IH]; cbn [csum]; [rewrite Cmod_0; cbn; lra|]. eapply Rle_trans; [apply Cmod_triangle|]. rewrite Re_add. cbn [Re RtoC fst] in *. lra. Qed.
Lemma csum3_sub f g : (csum3 M N D f - csum3 M N D g)%C = csum3 M N D (fun a b c => f a b c - g a b c)%C.
Proof. unfold csum3. rewrite csum_sub. apply csum_ext. intros. rewrite csum_sub. apply csum_ext. intros. apply csum_sub. Qed.
Lemma Re_csum3_le f g : (forall a b c, (a < M)%nat -> (b < N)%nat -> (c < D)%nat -> Re (f a b c) <= Re (g a b c)) -> Re (csum3 M N D f) <= Re (csum3 M N D g).
Proof. intros H. unfold csum3. apply Re_csum_le. intros a Ha. apply Re_csum_le. intros b Hb. apply Re_csum_le. intros c Hc. now apply H. Qed.
Lemma Cmod_csum3_le f : Cmod (csum3 M N D f) <= Re (csum3 M N D (fun a b c => RtoC (Cmod (f a b c)))).
Proof.
  unfold csum3. eapply Rle_trans; [apply Cmod_csum_le|]. apply Re_csum_le. intros a _. change (Re (RtoC ?z)) with z.
  eapply Rle_trans; [apply Cmod_csum_le|]. apply Re_csum_le. intros b _. change (Re (RtoC ?z)) with z. apply Cmod_csum_le.
Qed.
Lemma csum3_reflect (f : nat -> nat -> nat -> C) u v w :
  csum3 M N D (fun a b c => f (wrap M (u - Z.of_nat a)) (wrap N (v - Z.of_nat b)) (wrap D (w - Z.of_nat c))) = csum3 M N D f.
Proof.
  unfold csum3.
  rewrite (csum_reflect3 M (fun a => csum N (fun b => csum D (fun c => f a (wrap N (v - Z.of_nat b)) (wrap D (w - Z.of_nat c))))) u HM).
  apply csum_ext. intros a _. rewrite (csum_reflect3 N (fun b => csum D (fun c => f a b (wrap D (w - Z.of_nat c)))) v HN).
  apply csum_ext. intros b _. apply (csum_reflect3 D (fun c => f a b c) w HD).
Qed.
Lemma conv3_close B x y h u v w : close3 B x y -> Cmod (conv3 M N D x h u v w - conv3 M N D y h u v w)%C <= B * l1_3 h.
Proof.
  intros Hc. unfold conv3. rewrite csum3_sub. eapply Rle_trans; [apply Cmod_csum3_le; assumption|]. unfold l1_3.
  rewrite <- (csum3_reflect (fun a b c => RtoC (Cmod (vox N D h a b c))) u v w).
  match goal with |- _ <= B * Re (csum3 M N D ?f) => replace (B * Re (csum3 M N D f)) with (Re (csum3 M N D (fun a b c => RtoC B * f a b c)%C)) end.
  2:{ rewrite csum3_scal. destruct (csum3 M N D _) as [p q]. cbn. ring. }
  apply Re_csum3_le. intros a b c Ha Hb Hcc.
  match goal with |- Re (RtoC (Cmod (?x1 * ?h1 - ?y1 * ?h1)%C)) <= _ => replace (x1 * h1 - y1 * h1)%C with ((x1 - y1) * h1)%C by ring end.
  rewrite Cmod_mult, <- RtoC_mult. change (Re (RtoC ?z)) with z. apply Rmult_le_compat_r; [apply Cmod_ge_0|]. now apply Hc.
Qed.
Lemma l1_3_pos h : 0 <= l1_3 h.
Proof. unfold l1_3. eapply Rle_trans; [|apply Cmod_csum3_le]. apply Cmod_ge_0. Qed.
Lemma moment_close q B u u' : (forall a b c, (a < M)%nat -> (b < N)%nat -> (c < D)%nat -> Rabs (rpow (u a b c) q - rpow (u' a b c) q) <= B) ->
  Cmod (csum3 M N D (fun a b c => RtoC (rpow (u a b c) q)) - csum3 M N D (fun a b c => RtoC (rpow (u' a b c) q)))%C <= INR (M * (N * D)) * B.
Proof.
  intros H. rewrite csum3_sub by assumption. eapply Rle_trans; [apply Cmod_csum3_le; assumption|].
  eapply Rle_trans; [apply (Re_csum3_le _ (fun _ _ _ => RtoC B)); intros a b c Ha Hb Hc; rewrite <- RtoC_minus, Cmod_R; now apply H|].
  right. unfold csum3. rewrite !csum_const, !mult_INR, <- !RtoC_mult. change (Re (RtoC ?z)) with z. ring.
Qed.
End Size.

Section Gain.
Variables (sph : Z -> Z -> R -> R -> C) (p : params3).
Notation M := (Mx p). Notation N := (Nx p). Notation D := (Dx p).
Hypothesis (HM : (0 < M)%nat) (HN : (0 < N)%nat) (HD : (0 < D)%nat).
(** The gain of the wavelet modulus of degree l at scale j: the Euclidean norm of the l1 norms of its components. *)
Definition gain3 (l j : nat) : R :=
  if h_rotation_covariant p then sqrt (fold_right Rplus 0 (map (fun i => pow (l1_3 M N D (psi3 sph p l j (Z.of_nat i - Z.of_nat l))) 2) (seq 0 (2 * l + 1))))
  else l1_3 M N D (psi3 sph p l j (- Z.of_nat l)).
Lemma gain3_pos l j : 0 <= gain3 l j.
Proof. unfold gain3. destruct (h_rotation_covariant p); [apply sqrt_pos|now apply l1_3_pos]. Qed.
Lemma u_of_norm l j v a b c : u_of sph p l j v a b c =
  if h_rotation_covariant p then norm_of (map (fun i => amp3 sph p l j (Z.of_nat i - Z.of_nat l) v a b c) (seq 0 (2 * l + 1))) else amp3 sph p l j (- Z.of_nat l) v a b c.
Proof. unfold u_of, norm_of. now rewrite map_map. Qed.
Lemma gain3_norm l j : gain3 l j =
  if h_rotation_covariant p then norm_of (map (fun i => l1_3 M N D (psi3 sph p l j (Z.of_nat i - Z.of_nat l))) (seq 0 (2 * l + 1))) else l1_3 M N D (psi3 sph p l j (- Z.of_nat l)).
Proof. unfold gain3, norm_of. now rewrite map_map. Qed.
Lemma close3_sym B x y : close3 M N D B x y -> close3 M N D B y x.
Proof. intros H a b c Ha Hb Hc. replace (vox N D y a b c - vox N D x a b c)%C with (- (vox N D x a b c - vox N D y a b c))%C by ring. rewrite Cmod_opp. now apply H. Qed.
Lemma amp3_le B l j m x y a b c : close3 M N D B x y -> amp3 sph p l j m x a b c <= amp3 sph p l j m y a b c + B * l1_3 M N D (psi3 sph p l j m).
Proof.
  intros H. unfold amp3. pose proof (conv3_close M N D HM HN HD B x y (psi3 sph p l j m) (Z.of_nat a) (Z.of_nat b) (Z.of_nat c) H) as G.
  set (P := conv3 M N D x _ _ _ _) in *. set (Q := conv3 M N D y _ _ _ _) in *. pose proof (Cmod_triangle (P - Q)%C Q) as T.
  replace (P - Q + Q)%C with P in T by ring. lra.
Qed.
Lemma u_of_le B l j x y a b c : 0 <= B -> close3 M N D B x y -> u_of sph p l j x a b c <= u_of sph p l j y a b c + B * gain3 l j.
Proof.
  intros HB H. rewrite !u_of_norm, gain3_norm. destruct (h_rotation_covariant p); [|now apply amp3_le].
  apply (norm_of_le (fun i => amp3 sph p l j (Z.of_nat i - Z.of_nat l) x a b c) (fun i => amp3 sph p l j (Z.of_nat i - Z.of_nat l) y a b c)
    (fun i => l1_3 M N D (psi3 sph p l j (Z.of_nat i - Z.of_nat l)))); [exact HB|]. intros i.
  split; [apply Cmod_ge_0|]. split; [apply Cmod_ge_0|]. split; [now apply l1_3_pos|]. now apply amp3_le.
Qed.
Lemma u_of_nonneg l j x a b c : 0 <= u_of sph p l j x a b c.
Proof. unfold u_of. destruct (h_rotation_covariant p); [apply sqrt_pos|apply Cmod_ge_0]. Qed.
Lemma u_of_close B l j x y a b c : 0 <= B -> close3 M N D B x y -> Rabs (u_of sph p l j x a b c - u_of sph p l j y a b c) <= B * gain3 l j.
Proof.
  intros HB H. pose proof (u_of_le B l j x y a b c HB H). pose proof (u_of_le B l j y x a b c HB (close3_sym _ _ _ H)). apply Rabs_le. lra.
Qed.
Lemma u_of_zero l j a b c : u_of sph p l j (vol M N D (fun _ _ _ => RtoC 0)) a b c = 0.
Proof.
  assert (E : forall m, amp3 sph p l j m (vol M N D (fun _ _ _ => RtoC 0)) a b c = 0).
  { intros m. unfold amp3, psi3. rewrite conv3_const by assumption. rewrite Cmod_mult, Cmod_0. ring. }
  unfold u_of. destruct (h_rotation_covariant p); [|apply E]. match goal with |- sqrt ?t = _ => enough (Z0 : t = 0) by (rewrite Z0; apply sqrt_0) end. induction (seq 0 (2 * l + 1)) as [|i L IH]; [reflexivity|]. cbn [map fold_right]. rewrite IH, E. ring.
Qed.
Definition bounded3 (K : R) (x : list C) : Prop := forall a b c, (a < M)%nat -> (b < N)%nat -> (c < D)%nat -> Cmod (vox N D x a b c) <= K.
Lemma u_of_bounded K l j x a b c : 0 <= K -> bounded3 K x -> u_of sph p l j x a b c <= K * gain3 l j.
Proof.
  intros HK H. rewrite <- (Rplus_0_l (K * gain3 l j)), <- (u_of_zero l j a b c). apply u_of_le; [exact HK|]. intros i k m Hi Hk Hm. rewrite vox_vol by assumption.
  replace (vox N D x i k m - 0)%C with (vox N D x i k m) by ring. now apply H.
Qed.
Notation again l j v := (vol M N D (fun a b c => RtoC (u_of sph p l j v a b c))).
Lemma again_close B l j x y : 0 <= B -> close3 M N D B x y -> close3 M N D (B * gain3 l j) (again l j x) (again l j y).
Proof. intros HB H a b c Ha Hb Hc. rewrite !vox_vol by assumption. rewrite <- RtoC_minus, Cmod_R. now apply u_of_close. Qed.
Lemma again_bounded K l j x : 0 <= K -> bounded3 K x -> bounded3 (K * gain3 l j) (again l j x).
Proof. intros HK H a b c Ha Hb Hc. rewrite vox_vol by assumption. rewrite Cmod_R, Rabs_pos_eq by apply u_of_nonneg. now apply u_of_bounded. Qed.
Lemma moment_stable q B K l j x y : 0 <= B -> close3 M N D B x y ->
  (0 < q <= 1 -> Cmod (moment3 p q (u_of sph p l j x) - moment3 p q (u_of sph p l j y))%C <= INR (M * (N * D)) * rpow (B * gain3 l j) q) /\
  (1 <= q -> 0 <= K -> bounded3 K x -> bounded3 K y ->
     Cmod (moment3 p q (u_of sph p l j x) - moment3 p q (u_of sph p l j y))%C <= INR (M * (N * D)) * (q * rpow (K * gain3 l j) (q - 1) * (B * gain3 l j))).
Proof.
  intros HB H. split.
  - intros Hq. apply (moment_close M N D HM HN HD). intros a b c _ _ _. eapply Rle_trans; [apply rpow_holder; [apply u_of_nonneg|apply u_of_nonneg|exact Hq]|].
    apply rpow_le_l; [lra|]. split; [apply Rabs_pos|now apply u_of_close].
  - intros Hq HK Hx Hy. apply (moment_close M N D HM HN HD). intros a b c _ _ _. eapply Rle_trans.
    + apply (rpow_lipschitz _ _ (K * gain3 l j)); [split; [apply u_of_nonneg|now apply u_of_bounded]|split; [apply u_of_nonneg|now apply u_of_bounded]|exact Hq].
    + apply Rmult_le_compat_l; [|now apply u_of_close]. apply Rmult_le_pos; [lra|apply rpow_nonneg].
Qed.
End Gain.

(** ** C91 *)
Local Open Scope Z_scope.
Theorem C91_stability : forall sph f p s batch x y, runs3 f p -> valid3 p -> new3 sph p = Ok s -> input3 p batch x -> input3 p batch y ->
  exists z z', f s x = Ok z /\ f s y = Ok z' /\
  forall b l i q g (E : R), (b < prod batch)%nat -> (l < Z.to_nat (h_L p + 1))%nat -> (q < List.length (h_integral_powers p))%nat ->
    (* the path with number i, and its gain *)
    (exists j, (j < Z.to_nat (h_J p + 1))%nat /\ i = j /\ g = gain3 sph p l j) \/
    (exists j1 j2, h_max_order p = 2 /\ (j1 < j2)%nat /\ Z.of_nat j2 <= h_J p /\
       i = Z.to_nat (h_J p + 1 + Z.of_nat j1 * (2 * h_J p + 1 - Z.of_nat j1) / 2 + (Z.of_nat j2 - Z.of_nat j1 - 1)) /\ g = (gain3 sph p l j1 * gain3 sph p l j2)%R) ->
    let vx := volume (Mx p) (Nx p) (Dx p) b x in let vy := volume (Mx p) (Nx p) (Dx p) b y in
    let power := nth q (h_integral_powers p) 0%R in let size := INR (Mx p * (Nx p * Dx p)) in
    (forall u v w, (u < Mx p)%nat -> (v < Nx p)%nat -> (w < Dx p)%nat -> (Cmod (vox (Nx p) (Dx p) vx u v w - vox (Nx p) (Dx p) vy u v w)%C <= E)%R) ->
    ((0 < power <= 1)%R -> (Cmod (coef3 p z b i l q - coef3 p z' b i l q)%C <= size * rpow (E * g) power)%R) /\
    ((1 <= power)%R -> forall K : R,
       (forall u v w, (u < Mx p)%nat -> (v < Nx p)%nat -> (w < Dx p)%nat -> (Cmod (vox (Nx p) (Dx p) vx u v w) <= K /\ Cmod (vox (Nx p) (Dx p) vy u v w) <= K)%R) ->
       (Cmod (coef3 p z b i l q - coef3 p z' b i l q)%C <= size * (power * rpow (K * g) (power - 1) * (E * g)))%R).
Proof.
  intros sph f p s batch x y Hf Hv Hn Hx Hy.
  destruct (C73_first_order sph f p s batch x Hf Hv Hn Hx) as (z & Ez & V1). destruct (C73_first_order sph f p s batch y Hf Hv Hn Hy) as (z' & Ez' & V1').
  exists z, z'. split; [exact Ez|]. split; [exact Ez'|]. intros b l i q g E Hb Hl Hq Hi vx vy power size HE.
  pose proof Hv as (_ & _ & HM & HN & HD & _).
  assert (PM : (0 < Mx p)%nat) by lia. assert (PN : (0 < Nx p)%nat) by lia. assert (PD : (0 < Dx p)%nat) by lia.
  assert (E0 : (0 <= E)%R) by (eapply Rle_trans; [apply Cmod_ge_0|apply (HE 0%nat 0%nat 0%nat); assumption]).
  assert (Hc : close3 (Mx p) (Nx p) (Dx p) E vx vy) by exact HE.
  assert (K0 : forall K : R, (forall u v w, (u < Mx p)%nat -> (v < Nx p)%nat -> (w < Dx p)%nat -> (Cmod (vox (Nx p) (Dx p) vx u v w) <= K /\ Cmod (vox (Nx p) (Dx p) vy u v w) <= K)%R) ->
    (0 <= K)%R /\ bounded3 p K vx /\ bounded3 p K vy).
  { intros K HK. split; [eapply Rle_trans; [apply Cmod_ge_0|apply (HK 0%nat 0%nat 0%nat); assumption]|]. split; intros u v w Hu Hv' Hw; now apply HK. }
  destruct Hi as [(j & Hj & -> & ->)|(j1 & j2 & Hmo & Hj & Hj2 & -> & ->)].
  - rewrite V1, V1' by assumption. fold vx vy power. split.
    + intros Hp. now apply (moment_stable sph p PM PN PD power E 0 l j vx vy E0 Hc).
    + intros Hp K HK. destruct (K0 K HK) as (G0 & G1 & G2). now apply (moment_stable sph p PM PN PD power E K l j vx vy E0 Hc).
  - destruct (C73_second_order sph f p s batch x Hf Hv Hmo Hn Hx) as (z2 & Ez2 & V2). destruct (C73_second_order sph f p s batch y Hf Hv Hmo Hn Hy) as (z2' & Ez2' & V2').
    rewrite Ez in Ez2. injection Ez2 as <-. rewrite Ez' in Ez2'. injection Ez2' as <-. rewrite V2, V2' by assumption. fold vx vy power.
    pose proof (gain3_pos sph p PM PN PD l j1) as GP.
    pose proof (again_close sph p PM PN PD E l j1 vx vy E0 Hc) as Hc2. assert (E1 : (0 <= E * gain3 sph p l j1)%R) by (apply Rmult_le_pos; assumption).
    rewrite <- (Rmult_assoc E). split.
    + intros Hp. now apply (moment_stable sph p PM PN PD power _ 0 l j2 _ _ E1 Hc2).
    + intros Hp K HK. destruct (K0 K HK) as (G0 & G1 & G2). rewrite <- (Rmult_assoc K).
      apply (moment_stable sph p PM PN PD power _ (K * gain3 sph p l j1)%R l j2 _ _ E1 Hc2 ); [exact Hp|apply Rmult_le_pos; assumption|now apply again_bounded|now apply again_bounded].
Qed.
Print Assumptions C91_stability.
Example C91_instance : exists s z z', new3 sph0 p_ex = Ok s /\ numpy_scattering3 s x_ex = Ok z /\ numpy_scattering3 s (scale3 0 x_ex) = Ok z' /\
  (Cmod (coef3 p_ex z 1 4 1 0 - coef3 p_ex z' 1 4 1 0)%C <= INR (4 * (2 * 3)) * rpow (47 * (gain3 sph0 p_ex 1 0 * gain3 sph0 p_ex 1 2)) 1)%R.
Proof.
  destruct p_ex_new as (s & Hs).
  destruct (C91_stability sph0 numpy_scattering3 p_ex s [2; 1]%nat x_ex (scale3 0 x_ex) (or_introl eq_refl) p_ex_valid Hs x_ex_ok (scale3_input _ _ _ _ x_ex_ok)) as (z & z' & H1 & H2 & H).
  exists s, z, z'. split; [exact Hs|]. split; [exact H1|]. split; [exact H2|].
  destruct (H 1%nat 1%nat 4%nat 0%nat (gain3 sph0 p_ex 1 0 * gain3 sph0 p_ex 1 2)%R 47%R) as [A _]; try (cbn; lia).
  - right. exists 0%nat, 2%nat. cbn. repeat split; try lia.
  - intros u v w Hu Hv Hw. rewrite volume_scale. unfold vox. set (n := (_ + _)%nat).
    assert (B : forall m, (Cmod (nth m (volume 4 2 3 1 x_ex) 0%C) <= 47)%R).
    { intros m. change (volume 4 2 3 1 x_ex) with (map (fun n => RtoC (INR n)) (seq 24 24)). destruct (Nat.lt_ge_cases m 24) as [L|L].
      - rewrite (nth_indep _ _ (RtoC (INR 0))) by (rewrite map_length, seq_length; exact L). rewrite (map_nth (fun n => RtoC (INR n))), seq_nth by exact L.
        rewrite Cmod_R, Rabs_pos_eq by apply pos_INR. replace 47%R with (INR 47) by (cbn; ring). apply le_INR. lia.
      - rewrite nth_overflow by (rewrite map_length, seq_length; exact L). rewrite Cmod_0. lra. }
    match goal with |- (Cmod (?P - ?Q)%C <= _)%R => replace Q with (RtoC 0) end.
    + unfold Cminus. rewrite <- RtoC_opp, Ropp_0, Cplus_0_r. apply B.
    + symmetry. match goal with |- nth _ (map _ ?L) _ = _ => generalize L end. intros L. replace (RtoC 0) with (RtoC 0 * RtoC 0)%C at 2 by ring. rewrite map_nth. ring.
  - apply A. cbn. lra.
Qed.
