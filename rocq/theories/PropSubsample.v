(** C96: subsample_fourier with a factor that does not divide the size. *)
From Coq Require Import Reals ZArith List Bool Arith Lia.
From Coquelicot Require Import Complex.
From Verif Require Import Base NdArray Backend Backend2d NdProofs ComplexOps Dft Dft2 Conv1d Torch1d TorchRel Cuda CudaProofs CudaProofs2.
Import ListNotations.
Local Open Scope nat_scope.

Lemma below_multiple n k : 0 < k -> k * (n / k) <= n < k * (n / k) + k.
Proof. intros H. pose proof (Nat.div_mod n k ltac:(lia)). pose proof (Nat.mod_upper_bound n k ltac:(lia)). lia. Qed.
Lemma not_multiple n k : 0 < k -> ~ Nat.divide k n -> k * (n / k) < n.
Proof. intros H Hd. pose proof (below_multiple n k H). destruct (Nat.eq_dec (k * (n / k)) n) as [E|]; [|lia]. exfalso. apply Hd. exists (n / k). lia. Qed.

(** PyTorch in 1-D and 2-D: RuntimeError, whatever the batch axes. *)
Theorem C96_torch_1d : forall x pre n k, t_shape x = pre ++ [n; 2] -> 0 < prod pre -> 0 < k -> ~ Nat.divide k n ->
  t_subsample x (PInt (Z.of_nat k)) = Err RuntimeError.
Proof.
  intros x pre n k Hs Hp Hk Hd. pose proof (not_multiple n k Hk Hd) as Hn.
  assert (Sl : split_last (t_shape x) = Ok (pre ++ [n], 2)) by (rewrite Hs; unfold split_last; rewrite rev_app_distr; cbn; now rewrite rev_involutive).
  assert (Sp : split_pair (t_shape x) = Ok (pre, n, 2)) by (rewrite Hs; unfold split_pair; rewrite rev_app_distr; cbn; now rewrite rev_involutive).
  unfold t_subsample, t_complex_check. rewrite Sl. cbn [bind negb raise_if Nat.eqb]. rewrite Sp. cbn [bind].
  rewrite (proj2 (Z.eqb_neq _ _)), (proj2 (Z.ltb_ge _ _)), Nat2Z.id by lia. destruct (t_contig x); cbn [negb]; [|reflexivity].
  rewrite (proj2 (Nat.eqb_neq _ _)); [reflexivity|]. rewrite Hs, !prod_app. unfold prod at 2 4. cbn [fold_right]. nia.
Qed.
Print Assumptions C96_torch_1d.

Theorem C96_torch_2d : forall x pre h w k, t_shape x = pre ++ [h; w; 2] -> t_contig x = true -> 0 < prod pre -> 0 < h -> 0 < w -> 0 < k ->
  ~ (Nat.divide k h /\ Nat.divide k w) -> t_subsample2 x k = Err RuntimeError.
Proof.
  intros x pre h w k Hs Hc Hp Hh Hw Hk Hd.
  assert (Sl : split_last (t_shape x) = Ok (pre ++ [h; w], 2)).
  { rewrite Hs. unfold split_last. rewrite rev_app_distr. cbn. rewrite rev_involutive, <- app_assoc. reflexivity. }
  assert (Si : split_image (t_shape x) = Ok (pre, h, w, 2)) by (rewrite Hs; unfold split_image; rewrite rev_app_distr; cbn; now rewrite rev_involutive).
  unfold t_subsample2, t_contiguous_check, t_complex_check. rewrite Hc, Sl, Si. cbn [bind negb raise_if Nat.eqb].
  rewrite (proj2 (Nat.eqb_neq (h * w) 0)), (proj2 (Nat.eqb_neq k 0)) by nia. rewrite (proj2 (Nat.eqb_neq (prod pre) 0)) by lia. cbn [andb]. rewrite orb_false_r.
  destruct (Nat.eqb_spec (k * (h / k)) h) as [E1|]; [|reflexivity]. destruct (Nat.eqb_spec (k * (w / k)) w) as [E2|]; [|reflexivity].
  exfalso. apply Hd. split; [exists (h / k)|exists (w / k)]; lia.
Qed.
Print Assumptions C96_torch_2d.

(** NumPy in 2-D: the number of images is inferred by reshape, so that the call is refused exactly when the sizes of all images
    together do not fit.  Missing from the full claim: the images that fit together without k dividing each size. *)
Theorem C96_numpy_2d_partial : forall (x : nd C) B M N k, nd_dtype x = Complex -> nd_shape x = [B; M; N] -> 0 < k ->
  let p := k * (M / k) * (k * (N / k)) in
  (k <= M /\ k <= N /\ Nat.divide p (B * M * N) -> exists y, np2_subsample complex_ops x (PInt (Z.of_nat k)) = Ok y /\ nd_shape y = [B * M * N / p; M / k; N / k]) /\
  (~ (k <= M /\ k <= N /\ Nat.divide p (B * M * N)) -> np2_subsample complex_ops x (PInt (Z.of_nat k)) = Err ValueError) /\
  (Nat.divide k M -> Nat.divide k N -> 0 < M -> 0 < N -> k <= M /\ k <= N /\ Nat.divide p (B * M * N) /\ B * M * N / p = B).
Proof.
  intros x B M N k Hd Hs Hk p.
  assert (E : np2_subsample complex_ops x (PInt (Z.of_nat k)) = if Nat.eqb p 0 then Err ValueError else if Nat.eqb ((B * M * N) mod p) 0
    then Ok (mk_nd Complex [B * M * N / p; M / k; N / k] (concat (map (fun blk => img (M / k) (N / k) (fun u v =>
      o_divn complex_ops (osum complex_ops (map (fun i => osum complex_ops (map (fun j => nth (((i * (M / k) + u) * k + j) * (N / k) + v) blk (o_zero complex_ops)) (seq 0 k))) (seq 0 k))) (k * k)))
        (chunks (B * M * N / p) (k * (M / k) * (k * (N / k))) (nd_data x))))) else Err ValueError).
  { unfold np2_subsample, complex_check, is_complex. rewrite Hd, Hs. cbn [negb raise_if bind]. rewrite (proj2 (Z.eqb_neq _ _)), (proj2 (Z.ltb_ge _ _)), Nat2Z.id by lia.
    unfold reshape_infer. rewrite Hs.
    replace (prod [k; M / k; k; N / k]) with p by (unfold p, prod; cbn [fold_right]; ring). replace (prod [B; M; N]) with (B * M * N) by (unfold prod; cbn [fold_right]; ring).
    destruct (Nat.eqb p 0); [reflexivity|]. destruct (Nat.eqb ((B * M * N) mod p) 0); reflexivity. }
  assert (Hp : forall n, 0 < n / k <-> k <= n).
  { intros n. pose proof (below_multiple n k Hk). split; intros; [nia|]. apply Nat.div_str_pos. lia. }
  split; [|split].
  - intros (H1 & H2 & H3). apply Hp in H1, H2. assert (p <> 0) by (unfold p; nia). rewrite E. rewrite (proj2 (Nat.eqb_neq p 0)) by assumption.
    rewrite (proj2 (Nat.eqb_eq _ _)); [|apply Nat.mod_divide; assumption]. eauto.
  - intros Hn. rewrite E. destruct (Nat.eqb_spec p 0) as [|Hp0]; [reflexivity|]. destruct (Nat.eqb_spec ((B * M * N) mod p) 0) as [Hm|]; [|reflexivity].
    exfalso. apply Hn. rewrite <- !Hp. split; [unfold p in Hp0; nia|]. split; [unfold p in Hp0; nia|]. now apply Nat.mod_divide.
  - intros [m Em] [n En] HM HN.
    assert (E1 : M / k = m) by (rewrite Em; apply Nat.div_mul; lia). assert (E2 : N / k = n) by (rewrite En; apply Nat.div_mul; lia).
    assert (Ep : p = M * N) by (unfold p; rewrite E1, E2, Em, En; ring). rewrite Ep. replace (B * M * N) with (B * (M * N)) by ring.
    split; [apply Hp; nia|]. split; [apply Hp; nia|]. split; [now exists B|]. apply Nat.div_mul. nia.
Qed.
Print Assumptions C96_numpy_2d_partial.

(** One image of 8j by 9j pixels subsampled by 6j comes out as two images of one pixel. *)
Theorem C96_numpy_2d_refuted : forall (x : nd C) j, 0 < j -> nd_dtype x = Complex -> nd_shape x = [1; 8 * j; 9 * j] ->
  ~ Nat.divide (6 * j) (8 * j) /\ ~ Nat.divide (6 * j) (9 * j) /\
  exists y, np2_subsample complex_ops x (PInt (Z.of_nat (6 * j))) = Ok y /\ nd_shape y = [2; 1; 1].
Proof.
  intros x j Hj Hd Hs. split; [intros [q Hq]; destruct q as [|[|]]; nia|]. split; [intros [q Hq]; destruct q as [|[|]]; nia|].
  assert (E8 : 8 * j / (6 * j) = 1) by (rewrite Nat.div_mul_cancel_r by lia; reflexivity).
  assert (E9 : 9 * j / (6 * j) = 1) by (rewrite Nat.div_mul_cancel_r by lia; reflexivity).
  destruct (C96_numpy_2d_partial x 1 (8 * j) (9 * j) (6 * j) Hd Hs ltac:(lia)) as (H & _). cbv zeta in H. rewrite E8, E9 in H.
  assert (Ep : 1 * (8 * j) * (9 * j) = 2 * (6 * j * 1 * (6 * j * 1))) by ring. rewrite Ep, Nat.div_mul in H by nia.
  apply H. split; [lia|]. split; [lia|]. now exists 2.
Qed.
Print Assumptions C96_numpy_2d_refuted.

(** The docstring accepts more than three axes: with four, the result, if any, has lost one of them. *)
Theorem C96_numpy_2d_axes_refuted : forall (x y : nd C) b c M N k, nd_shape x = [b; c; M; N] -> np2_subsample complex_ops x (PInt k) = Ok y ->
  forall m n, nd_shape y <> [b; c; m; n].
Proof.
  intros x y b c M N k Hs H m n E. unfold np2_subsample in H. destruct (complex_check x) as [|]; cbn [bind] in H; [|discriminate]. rewrite Hs in H.
  destruct (k =? 0)%Z; [discriminate|]. destruct (k <? 0)%Z; [discriminate|]. destruct (reshape_infer _ x) as [r|]; cbn [bind] in H; [|discriminate].
  injection H as <-. discriminate E.
Qed.
Print Assumptions C96_numpy_2d_axes_refuted.

(** The 2-D kernel is launched whatever the factor: no exception, and the output has h/k lines and w/k columns. *)
Theorem C96_cuda_2d_refuted : forall x pre h w k, t_shape x = pre ++ [h; w; 2] -> t_contig x = true -> 0 < k -> k <= h -> k <= w ->
  0 < prod pre -> (Z.of_nat (prod pre) <= 65535)%Z -> (Z.of_nat h <= 65535)%Z -> (Z.of_nat w <= 65535)%Z ->
  exists ws, cuda_subsample2 x k = Ok (pre ++ [h / k; w / k; 2], ws).
Proof.
  intros x pre h w k Hs Hc Hk Hh Hw Hp Hp' Hh' Hw'.
  assert (Sl : split_last (t_shape x) = Ok (pre ++ [h; w], 2)).
  { rewrite Hs. unfold split_last. rewrite rev_app_distr. cbn. rewrite rev_involutive, <- app_assoc. reflexivity. }
  assert (Si : split_image (t_shape x) = Ok (pre, h, w, 2)) by (rewrite Hs; unfold split_image; rewrite rev_app_distr; cbn; now rewrite rev_involutive).
  unfold cuda_subsample2, t_contiguous_check, t_complex_check. rewrite Hc, Sl, Si. cbn [bind negb raise_if Nat.eqb].
  rewrite (proj2 (Nat.eqb_neq (h * w) 0)), (proj2 (Nat.eqb_neq k 0)) by nia. unfold launch. rewrite grid_accepted; [cbn [bind]; eauto|..].
  - unfold dx. cbn [fst snd]. pose proof (Nat.div_str_pos h k ltac:(lia)). pose proof (below_multiple h k Hk).
    pose proof (blocks_pos (Z.of_nat (h / k)) 32 ltac:(lia) ltac:(lia)). pose proof (blocks_cover (Z.of_nat (h / k)) 32 ltac:(lia) ltac:(lia)).
    assert (h / k <= h) by nia. lia.
  - unfold dy. cbn [fst snd]. pose proof (Nat.div_str_pos w k ltac:(lia)). pose proof (below_multiple w k Hk).
    pose proof (blocks_pos (Z.of_nat (w / k)) 32 ltac:(lia) ltac:(lia)). pose proof (blocks_cover (Z.of_nat (w / k)) 32 ltac:(lia) ltac:(lia)).
    assert (w / k <= w) by nia. lia.
  - unfold dz. cbn [snd]. unfold get_blocks. rewrite Z.div_1_r. lia.
Qed.
Print Assumptions C96_cuda_2d_refuted.

Local Open Scope Z_scope.
(** One thread of the 1-D kernel, for any length. *)
Lemma periodize1_any B T k x bl t : dx bl = 1024 -> dy bl = 1 -> 0 < k -> k <= T -> 0 < B -> B * T <= Z.of_nat (length x) -> Z.of_nat (length x) < 2 ^ 31 -> (k - 1) * T < 2 ^ 31 ->
  let tx := dx (fst t) * 1024 + dx (snd t) in let ty := dy (fst t) * 1 + dy (snd t) in
  0 <= tx < 2 ^ 31 -> 0 <= ty < 2 ^ 31 ->
  exists v, periodize1 bl B T k x t = Some (if (tx <? T / k) && (ty <? B) then Some (ty * T / k + tx, v) else None).
Proof.
  intros Bx By Hk HkT HB Hl Hx HkT2 tx ty Htx Hty. unfold periodize1, thread_x, thread_y. rewrite Bx, By. fold tx. fold ty.
  rewrite !int32_pos by assumption. cbn [obind]. rewrite (Z.quot_div_nonneg T k) by lia.
  rewrite Z.geb_leb, (Z.geb_leb ty), (Z.leb_antisym tx), (Z.leb_antisym ty), <- negb_andb.
  destruct ((tx <? T / k) && (ty <? B)) eqn:Ea; [|exists (RtoC 0); reflexivity]. cbn [negb].
  apply andb_true_iff in Ea. rewrite !Z.ltb_lt in Ea. destruct Ea as [Ax Ay].
  pose proof (Z.mul_div_le T k Hk) as HT. assert (H1 : T / k <= T) by (apply Z.div_le_upper_bound; nia).
  assert (A1 : 0 <= ty * T) by nia. assert (A2 : ty * T + T <= B * T) by nia.
  rewrite int32_pos by lia. cbn [obind]. rewrite int32_pos by lia. cbn [obind].
  rewrite (c_for_sum _ _ _ (fun i => nth (Z.to_nat (ty * T + tx + i * T / k)) x (RtoC 0))).
  - cbn [obind]. rewrite (Z.quot_div_nonneg (ty * T) k) by lia.
    assert (0 <= ty * T / k <= ty * T) by (split; [apply Z.div_pos; lia|apply Z.div_le_upper_bound; nia]).
    rewrite int32_pos by lia. cbn [obind]. rewrite (proj2 (Z.ltb_ge _ _)) by lia. eexists. reflexivity.
  - intros i a Hi. rewrite Z2Nat.id in Hi by lia. assert (0 <= i * T <= (k - 1) * T) by nia. rewrite int32_pos by lia. cbn [obind].
    rewrite (Z.quot_div_nonneg (i * T) k) by lia. rewrite (load_ok x _ (RtoC 0)); [reflexivity|].
    assert (0 <= i * T / k) by (apply Z.div_pos; lia).
    assert (i * T / k + T / k <= T); [|lia]. pose proof (Z.mul_div_le (i * T) k Hk). nia.
Qed.

(** The 1-D kernel, with a factor k that does not divide T and a batch of more than k signals: the call succeeds and writes
    beyond the end of the output, of b * c * (T / k) cells. *)
Theorem C96_cuda_1d_refuted : forall x b c T k, t_shape x = [b; c; T; 2]%nat -> length (t_data x) = (b * c * T * 2)%nat -> t_contig x = true ->
  (0 < k)%nat -> (k <= T)%nat -> ~ Nat.divide k T -> (k < b * c)%nat -> Z.of_nat (b * c) <= 65535 -> Z.of_nat (b * c * T) < 2 ^ 31 ->
  exists ws, cuda_subsample1 x k = Ok ([b; c; T / k; 2]%nat, Some ws) /\ exists a, In a (map fst ws) /\ Z.of_nat (b * c * (T / k)) <= a.
Proof.
  intros x b c T k Hs Hl Hc Hk HkT Hd Hb Hg Hx. destruct (flat_of_pairs _ _ Hl) as [_ El].
  pose proof (Nat.div_str_pos T k ltac:(lia)) as Hq. pose proof (not_multiple T k Hk Hd) as Hm. pose proof (below_multiple T k Hk) as Hm'. set (q := (T / k)%nat) in *.
  assert (Eq : Z.of_nat T / Z.of_nat k = Z.of_nat q) by (unfold q; now rewrite Nat2Z.inj_div).
  unfold cuda_subsample1, t_contiguous_check, t_complex_check. rewrite Hc, Hs. unfold split_last, split_pair. cbn [rev app bind negb raise_if Nat.eqb].
  rewrite (proj2 (Nat.eqb_neq k 0)) by lia. fold q. rewrite (proj2 (Nat.eqb_neq q 0)) by lia.
  assert (Eg : (prod [b; c; q; 2] / (2 * q) = b * c)%nat).
  { unfold prod. cbn [fold_right]. replace (b * (c * (q * (2 * 1))))%nat with (b * c * (2 * q))%nat by ring. apply Nat.div_mul. lia. }
  rewrite Eg. assert (EB : get_blocks (Z.of_nat (b * c)) 1 = Z.of_nat (b * c)) by (unfold get_blocks; rewrite Z.div_1_r; lia). rewrite EB.
  pose proof (blocks_cover (Z.of_nat q) 1024 ltac:(lia) ltac:(lia)) as Hcv. pose proof (blocks_pos (Z.of_nat q) 1024 ltac:(lia) ltac:(lia)) as Hp.
  set (gx := get_blocks (Z.of_nat q) 1024) in *.
  assert (HT : (T <= b * c * T)%nat) by nia. assert (HqT : (q <= T)%nat) by nia.
  assert (P31 : 2 ^ 31 = 2147483648) by reflexivity.
  unfold launch. rewrite grid_accepted; [|unfold dx; cbn [fst snd]; lia|unfold dy; cbn [fst snd]; lia|cbn; lia]. cbn [bind].
  set (ts := threads (gx, Z.of_nat (b * c), 1) (1024, 1, 1)).
  set (ix := fun t : dim3 * dim3 => dx (fst t) * 1024 + dx (snd t)). set (iy := fun t : dim3 * dim3 => dy (fst t) * 1 + dy (snd t)).
  assert (Hr : forall t, In t ts -> 0 <= ix t < 2 ^ 31 /\ 0 <= iy t < 2 ^ 31).
  { intros t Ht. apply In_threads in Ht. destruct Ht as [T1 T2]. apply In_indices in T1, T2. destruct t as [[[bx by_] bz] [[tx ty] tz]]. unfold ix, iy, dx, dy, dz in *. cbn [fst snd] in *. lia. }
  assert (Hbody : forall t, In t ts -> exists v, periodize1 (1024, 1, 1) (Z.of_nat (b * c)) (Z.of_nat T) (Z.of_nat k) (of_pairs (t_data x)) t =
     Some (if (ix t <? Z.of_nat q) && (iy t <? Z.of_nat (b * c)) then Some (iy t * Z.of_nat T / Z.of_nat k + ix t, v) else None)).
  { intros t Ht. destruct (Hr t Ht) as [R1 R2]. rewrite <- Eq. apply periodize1_any; try assumption; try reflexivity; unfold C in *; try lia.
    assert ((Z.of_nat k - 1) * Z.of_nat T <= Z.of_nat (b * c * T)) by nia. lia. }
  assert (Hrun : forall l, (forall t, In t l -> In t ts) -> exists ws, run_threads (periodize1 (1024, 1, 1) (Z.of_nat (b * c)) (Z.of_nat T) (Z.of_nat k) (of_pairs (t_data x))) l = Some ws /\
     forall t, In t l -> ix t < Z.of_nat q -> iy t < Z.of_nat (b * c) -> In (iy t * Z.of_nat T / Z.of_nat k + ix t) (map fst ws)).
  { induction l as [|t l IH]; intros Hin; [exists []; split; [reflexivity|intros t []]|].
    destruct IH as (ws & E & Hw); [intros u Hu; apply Hin; now right|]. destruct (Hbody t (Hin t (or_introl eq_refl))) as (v & Ev).
    cbn [run_threads]. rewrite Ev. cbn [obind]. rewrite E. cbn [obind]. eexists. split; [reflexivity|]. intros u [<-|Hu] U1 U2.
    - rewrite (proj2 (Z.ltb_lt _ _) U1), (proj2 (Z.ltb_lt _ _) U2). cbn [andb map fst]. now left.
    - destruct ((ix t <? Z.of_nat q) && (iy t <? Z.of_nat (b * c))); [right|]; now apply Hw. }
  destruct (Hrun ts (fun t H => H)) as (ws & E & Hw). rewrite E. exists ws. split; [reflexivity|].
  set (t := ((Z.of_nat (q - 1) / 1024, Z.of_nat (b * c - 1), 0), (Z.of_nat (q - 1) mod 1024, 0, 0)) : dim3 * dim3).
  assert (Hdm := divide_blocks (Z.of_nat q) 1024 (Z.of_nat (q - 1)) ltac:(lia) ltac:(lia)). fold gx in Hdm.
  assert (Ht : In t ts). { apply In_threads. unfold t. rewrite !In_indices. unfold dx, dy, dz. cbn [fst snd]. lia. }
  assert (Ex : ix t = Z.of_nat (q - 1)). { unfold ix, t, dx. cbn [fst snd]. pose proof (Z.div_mod (Z.of_nat (q - 1)) 1024 ltac:(lia)). lia. }
  assert (Ey : iy t = Z.of_nat (b * c - 1)) by (unfold iy, t, dy; cbn [fst snd]; lia).
  eexists. split; [apply Hw; [exact Ht|lia|lia]|]. rewrite Ex, Ey.
  assert (Hge : Z.of_nat (b * c - 1) * Z.of_nat q + 1 <= Z.of_nat (b * c - 1) * Z.of_nat T / Z.of_nat k); [apply Z.div_le_lower_bound; [lia|]|].
  - assert (Hbc : Z.of_nat k <= Z.of_nat (b * c - 1)) by lia. assert (Hkq : Z.of_nat k * Z.of_nat q + 1 <= Z.of_nat T) by nia. nia.
  - assert (Z.of_nat (b * c * q) = Z.of_nat (b * c - 1) * Z.of_nat q + Z.of_nat q); [|lia]. rewrite Nat2Z.inj_mul, Nat2Z.inj_sub by lia. ring.
Qed.
Print Assumptions C96_cuda_1d_refuted.

(** Six signals of 7 samples, a batch of 2 x 3 images of 7 by 8 pixels, and an image of 16 by 18 pixels. *)
Example C96_instance :
  let x := mk_t F32 [2; 3; 7; 2]%nat (repeat 1%R 84) true in
  let y := mk_t F32 [2; 3; 7; 8; 2]%nat (repeat 1%R 672) true in
  let z := mk_nd Complex [1; 16; 18]%nat (repeat (RtoC 1) 288) in
  t_subsample x (PInt 2) = Err RuntimeError /\ (exists ws a, cuda_subsample1 x 2 = Ok ([2; 3; 3; 2]%nat, Some ws) /\ In a (map fst ws) /\ 18 <= a) /\
  t_subsample2 y 2 = Err RuntimeError /\ (exists ws, cuda_subsample2 y 2 = Ok ([2; 3; 3; 4; 2]%nat, ws)) /\
  (exists r, np2_subsample complex_ops z (PInt 12) = Ok r /\ nd_shape r = [2; 1; 1]%nat) /\ np2_subsample complex_ops z (PInt 5) = Err ValueError /\
  (exists r, np2_subsample complex_ops (mk_nd Complex [2; 4; 4; 4]%nat (repeat (RtoC 1) 128)) (PInt 2) = Ok r).
Proof.
  intros x y z.
  assert (D7 : ~ Nat.divide 2 7) by (intros [q Hq]; lia).
  split. { apply (C96_torch_1d x [2; 3]%nat 7 2); [reflexivity|cbn; lia|lia|exact D7]. }
  split. { destruct (C96_cuda_1d_refuted x 2 3 7 2 eq_refl eq_refl eq_refl) as (ws & E & a & H1 & H2); [lia|lia|exact D7|lia|lia|cbn; lia|]. exists ws, a. split; [exact E|]. split; [exact H1|exact H2]. }
  split. { apply (C96_torch_2d y [2; 3]%nat 7 8 2); try reflexivity; try (cbn; lia). intros [H _]. now apply D7. }
  split. { destruct (C96_cuda_2d_refuted y [2; 3]%nat 7 8 2 eq_refl eq_refl) as (ws & E); try (cbn; lia). exists ws. exact E. }
  split. { destruct (C96_numpy_2d_refuted z 2 ltac:(lia) eq_refl eq_refl) as (_ & _ & H). exact H. }
  split. { destruct (C96_numpy_2d_partial z 1 16 18 5 eq_refl eq_refl ltac:(lia)) as (_ & H & _). apply H. cbn. intros (_ & _ & [q Hq]). lia. }
  eexists. reflexivity.
Qed.
