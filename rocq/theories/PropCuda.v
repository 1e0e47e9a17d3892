(** C58: the CUDA kernels of the torch_skcuda backends. *)
From Coq Require Import Reals ZArith List Bool Arith Lia Permutation.
From Coquelicot Require Import Complex.
From Verif Require Import Base NdArray Backend NdProofs ComplexOps Dft Dft2 Conv1d Torch1d TorchRel Cuda CudaProofs CudaProofs2.
Import ListNotations.
Local Open Scope Z_scope.

(** The addresses written are 0, ..., n-1, each exactly once. *)
Definition each_once {V} (n : nat) (ws : list (Z * V)) : Prop := Permutation (map fst ws) (map Z.of_nat (seq 0 n)).
(** Whatever the order of the writes and the initial contents of the buffer of [n] cells, its final contents are [l]. *)
Definition leaves {V} (n : nat) (ws : list (Z * V)) (l : list V) : Prop :=
  forall ws' initial, Permutation ws ws' -> length initial = n -> store ws' initial = l.

Lemma to_pairs_flat l : to_pairs l = flat 2 l.
Proof. reflexivity. Qed.
Lemma shape_split pre : forall n, split_last (pre ++ [n])%list = Ok (pre, n).
Proof. intros n. unfold split_last. rewrite rev_app_distr. cbn. now rewrite rev_involutive. Qed.

Theorem C58_modulus : forall x pre, t_shape x = (pre ++ [2])%nat -> length (t_data x) = (prod pre * 2)%nat -> t_contig x = true ->
  (0 < prod pre)%nat -> Z.of_nat (prod pre) <= 2 ^ 30 ->
  exists ws r, cuda_modulus x = Ok ((pre ++ [1])%nat, Some ws) /\ t_modulus x = Ok r /\ t_shape r = (pre ++ [1])%nat /\
    each_once (prod pre) ws /\ leaves (prod pre) ws (t_data r).
Proof.
  intros x pre Hs Hl Hc Hn Hm. destruct (flat_of_pairs _ _ Hl) as [_ El].
  assert (E1 : prod (pre ++ [1])%nat = prod pre) by (rewrite prod_app; cbn; lia).
  destruct (modulus_launch (of_pairs (t_data x)) (prod pre) El Hn Hm) as (ws & EL & H1 & H2).
  exists ws. eexists. unfold cuda_modulus, t_modulus, t_contiguous_check, t_complex_check. rewrite Hc, Hs, shape_split. cbn [bind negb raise_if Nat.eqb].
  rewrite E1, EL. cbn [bind]. split; [reflexivity|]. split; [reflexivity|]. split; [reflexivity|]. split; [exact H1|].
  intros ws' init Hp Hi. cbn [t_data].
  rewrite (store_all (fun p => let z := nth p (of_pairs (t_data x)) (RtoC 0) in modulus_forward (fst z) (snd z)) ws ws' init _ H1 H2 Hp Hi).
  apply nth_ext with (d := 0%R) (d' := 0%R); rewrite !map_length, seq_length; [symmetry; exact El|]. intros p Hpn.
  rewrite (nth_indep _ _ ((fun p => let z := nth p (of_pairs (t_data x)) (RtoC 0) in modulus_forward (fst z) (snd z)) 0%nat)) by (rewrite map_length, seq_length; lia).
  rewrite (map_nth (fun p => let z := nth p (of_pairs (t_data x)) (RtoC 0) in modulus_forward (fst z) (snd z))), seq_nth by lia.
  rewrite (nth_indep _ 0%R ((fun z : C => modulus_forward (fst z) (snd z)) (RtoC 0))) by (rewrite map_length; unfold C in *; lia). now rewrite (map_nth (fun z : C => modulus_forward (fst z) (snd z))).
Qed.
Print Assumptions C58_modulus.

(** 1-D subsampling of a tensor of shape (b, c, T, 2), with a factor k that divides T.  Missing from the full claim: more than
    65535 signals, more than 2**31 entries, or (k - 1) * T >= 2**31, all refuted below. *)
Theorem C58_subsample_1d_partial : forall x b c k m, t_shape x = [b; c; k * m; 2]%nat -> length (t_data x) = (b * c * (k * m) * 2)%nat -> t_contig x = true ->
  (0 < k)%nat -> (0 < m)%nat -> (0 < b * c)%nat -> Z.of_nat (b * c) <= 65535 -> Z.of_nat (b * c * (k * m)) < 2 ^ 31 -> (Z.of_nat k - 1) * Z.of_nat (k * m) < 2 ^ 31 ->
  exists ws r l, cuda_subsample1 x k = Ok ([b; c; m; 2]%nat, Some ws) /\ t_subsample x (PInt (Z.of_nat k)) = Ok r /\ t_shape r = [b; c; m; 2]%nat /\
    each_once (b * c * m) ws /\ leaves (b * c * m) ws l /\ t_data r = to_pairs l.
Proof.
  intros x b c k m Hs Hl Hc Hk Hm Hb Hb' Hn Ho. destruct (flat_of_pairs _ _ Hl) as [Ef El].
  assert (Ed : (k * m / k = m)%nat) by (rewrite Nat.mul_comm; apply Nat.div_mul; lia).
  destruct (periodize1_launch (b * c) k m (of_pairs (t_data x)) Hk Hm Hb El) as (ws & EL & H1 & H2); [unfold C in *; rewrite El; exact Hn|exact Ho|exact Hb'|].
  exists ws. eexists. exists (map (mean1 (k * m) k m (of_pairs (t_data x))) (seq 0 (b * c * m))).
  unfold cuda_subsample1, t_subsample, t_contiguous_check, t_complex_check. rewrite Hc, Hs. unfold split_last, split_pair. cbn [rev app bind negb raise_if Nat.eqb].
  rewrite (proj2 (Nat.eqb_neq k 0)) by lia. rewrite Ed, (proj2 (Nat.eqb_neq m 0)) by lia.
  assert (Eg : (prod [b; c; m; 2] / (2 * m) = b * c)%nat).
  { unfold prod. cbn [fold_right]. replace (b * (c * (m * (2 * 1))))%nat with (b * c * (2 * m))%nat by ring. apply Nat.div_mul. lia. }
  rewrite Eg, EL. cbn [bind]. split; [reflexivity|].
  rewrite (proj2 (Z.eqb_neq _ _)), (proj2 (Z.ltb_ge _ _)), Nat2Z.id, Ed by lia.
  assert (Ep : Nat.eqb (prod [b; c; k; m; 2]%nat) (prod [b; c; k * m; 2]%nat) = true) by (apply Nat.eqb_eq; unfold prod; cbn [fold_right]; ring). rewrite Ep.
  split; [reflexivity|]. split; [reflexivity|]. split; [exact H1|]. split.
  - intros ws' init Hp Hi. now apply (store_all _ ws).
  - cbn [t_data]. replace (prod [b; c]) with (b * c)%nat by (unfold prod; cbn [fold_right]; ring). rewrite <- Ef at 1. now apply periodize_rows.
Qed.
Print Assumptions C58_subsample_1d_partial.

(** i * NT is i * T / k in the kernel, without parentheses: as soon as (k - 1) * T >= 2**31 the multiplication overflows. *)
Theorem C58_overflow_refuted : forall x b c k T, t_shape x = [b; c; T; 2]%nat -> t_contig x = true -> (0 < b * c)%nat -> Z.of_nat (b * c) <= 65535 ->
  (2 <= k <= T)%nat -> Z.of_nat T < 2 ^ 31 -> 2 ^ 31 <= (Z.of_nat k - 1) * Z.of_nat T ->
  cuda_subsample1 x k = Ok ([b; c; T / k; 2]%nat, None).
Proof.
  intros x b c k T Hs Hc Hb Hb' Hk HT Ho. assert (Hd : (1 <= T / k)%nat) by (apply Nat.div_le_lower_bound; lia).
  assert (Hd' : (T / k <= T)%nat) by (apply Nat.div_le_upper_bound; nia).
  unfold cuda_subsample1, t_contiguous_check, t_complex_check. rewrite Hc, Hs. unfold split_last, split_pair. cbn [rev app bind negb raise_if Nat.eqb].
  rewrite (proj2 (Nat.eqb_neq k 0)) by lia. rewrite (proj2 (Nat.eqb_neq (T / k) 0)) by lia.
  assert (Eg : (prod [b; c; T / k; 2] / (2 * (T / k)) = b * c)%nat).
  { unfold prod. cbn [fold_right]. replace (b * (c * (T / k * (2 * 1))))%nat with (b * c * (2 * (T / k)))%nat by ring. apply Nat.div_mul. lia. }
  rewrite Eg. unfold launch. set (gx := get_blocks (Z.of_nat (T / k)) 1024).
  assert (Gx : 1 <= gx < 2 ^ 31). { split; [apply blocks_pos; lia|]. pose proof (blocks_cover (Z.of_nat (T / k)) 1024). fold gx in H. lia. }
  assert (EB : get_blocks (Z.of_nat (b * c)) 1 = Z.of_nat (b * c)) by (unfold get_blocks; rewrite Z.div_1_r; lia).
  rewrite grid_accepted; [|exact Gx|unfold dy; cbn [fst snd]; rewrite EB; lia|cbn; lia]. cbn [bind]. do 2 f_equal.
  apply (run_none _ _ ((0, 0, 0), (0, 0, 0))).
  - apply In_threads. split; apply In_indices; unfold dx, dy, dz; cbn [fst snd]; rewrite ?EB; lia.
  - apply (periodize1_overflow (b * c) T k (Z.of_nat (T / k))); try lia. rewrite Z.quot_div_nonneg by lia. apply Nat2Z.inj_div.
Qed.
Print Assumptions C58_overflow_refuted.

(** More than 65535 signals: the launch fails, while PyTorch returns. *)
Theorem C58_grid_refuted : forall x b c k m, t_shape x = [b; c; k * m; 2]%nat -> t_contig x = true -> (0 < k)%nat -> (0 < m)%nat -> 65535 < Z.of_nat (b * c) ->
  cuda_subsample1 x k = Err RuntimeError /\ exists r, t_subsample x (PInt (Z.of_nat k)) = Ok r.
Proof.
  intros x b c k m Hs Hc Hk Hm Hb. assert (Ed : (k * m / k = m)%nat) by (rewrite Nat.mul_comm; apply Nat.div_mul; lia).
  unfold cuda_subsample1, t_subsample, t_contiguous_check, t_complex_check. rewrite Hc, Hs. unfold split_last, split_pair. cbn [rev app bind negb raise_if Nat.eqb].
  rewrite (proj2 (Nat.eqb_neq k 0)) by lia. rewrite Ed, (proj2 (Nat.eqb_neq m 0)) by lia.
  assert (Eg : (prod [b; c; m; 2] / (2 * m) = b * c)%nat).
  { unfold prod. cbn [fold_right]. replace (b * (c * (m * (2 * 1))))%nat with (b * c * (2 * m))%nat by ring. apply Nat.div_mul. lia. }
  rewrite Eg. split.
  - assert (EB : get_blocks (Z.of_nat (b * c)) 1 = Z.of_nat (b * c)) by (unfold get_blocks; rewrite Z.div_1_r; lia).
    unfold launch, grid_ok, dx, dy, dz. cbn [fst snd]. rewrite EB, (proj2 (Z.leb_gt _ 65535)) by lia. rewrite andb_false_r. reflexivity.
  - rewrite (proj2 (Z.eqb_neq _ _)), (proj2 (Z.ltb_ge _ _)), Nat2Z.id, Ed by lia.
    assert (Ep : Nat.eqb (prod [b; c; k; m; 2]%nat) (prod [b; c; k * m; 2]%nat) = true) by (apply Nat.eqb_eq; unfold prod; cbn [fold_right]; ring). rewrite Ep. eauto.
Qed.
Print Assumptions C58_grid_refuted.

(** A tensor with five axes (b, c, n, T, 2), as in the joint transform: the kernel takes n for the number of samples; with k
    dividing n and T, the addresses from b * c * (n / k) on are never written. *)
Theorem C58_five_axes_refuted : forall x b c n k m, t_shape x = [b; c; k * n; k * m; 2]%nat -> length (t_data x) = (b * c * (k * n) * (k * m) * 2)%nat -> t_contig x = true ->
  (0 < k)%nat -> (0 < n)%nat -> (0 < m)%nat -> (0 < b * c)%nat -> Z.of_nat (b * c * (k * n)) <= 65535 -> Z.of_nat (b * c * (k * n) * (k * m)) < 2 ^ 31 ->
  exists ws, cuda_subsample1 x k = Ok ([b; c; k * n; m; 2]%nat, Some ws) /\ forall a, In a (map fst ws) -> a < Z.of_nat (b * c * n).
Proof.
  intros x b c n k m Hs Hl Hc Hk Hn Hm Hb Hg Hx.
  assert (Ed : forall q, (k * q / k = q)%nat) by (intros q; rewrite Nat.mul_comm; apply Nat.div_mul; lia).
  destruct (flat_of_pairs _ _ Hl) as [_ El].
  unfold cuda_subsample1, t_contiguous_check, t_complex_check. rewrite Hc, Hs. unfold split_last, split_pair. cbn [rev app bind negb raise_if Nat.eqb].
  rewrite (proj2 (Nat.eqb_neq k 0)) by lia. rewrite Ed, (proj2 (Nat.eqb_neq m 0)) by lia.
  assert (Eg : (prod [b; c; k * n; m; 2] / (2 * m) = b * c * (k * n))%nat).
  { unfold prod. cbn [fold_right]. replace (b * (c * (k * n * (m * (2 * 1)))))%nat with (b * c * (k * n) * (2 * m))%nat by ring. apply Nat.div_mul. lia. }
  rewrite Eg. assert (EB : get_blocks (Z.of_nat (b * c * (k * n))) 1 = Z.of_nat (b * c * (k * n))) by (unfold get_blocks; rewrite Z.div_1_r; lia). rewrite EB.
  pose proof (blocks_cover (Z.of_nat m) 1024 ltac:(lia) ltac:(lia)) as Hcv. pose proof (blocks_pos (Z.of_nat m) 1024 ltac:(lia) ltac:(lia)) as Hp.
  set (gx := get_blocks (Z.of_nat m) 1024) in *.
  assert (Hpos : (1 <= b * c * (k * n))%nat) by nia.
  assert (Hkm : (k * m <= b * c * (k * n) * (k * m))%nat) by nia. assert (Hm1 : (m <= k * m)%nat) by nia.
  assert (Hkn : (k * n <= b * c * (k * n))%nat) by nia. assert (Hbc : (b * c * (k * n) <= b * c * (k * n) * (k * m))%nat) by nia.
  assert (P31 : 2 ^ 31 = 2147483648) by reflexivity.
  assert (Hk2 : (Z.of_nat k - 1) * Z.of_nat (k * n) < 2 ^ 31).
  { assert (Z.of_nat k * Z.of_nat (k * n) <= Z.of_nat (b * c * (k * n) * (k * m))); [|nia]. rewrite <- Nat2Z.inj_mul. apply inj_le. assert (k <= k * m)%nat by nia. nia. }
  unfold launch. rewrite grid_accepted; [|unfold dx; cbn [fst snd]; lia|unfold dy; cbn [fst snd]; lia|cbn; lia]. cbn [bind].
  set (ts := threads (gx, Z.of_nat (b * c * (k * n)), 1) (1024, 1, 1)).
  set (ix := fun t : dim3 * dim3 => dx (fst t) * 1024 + dx (snd t)). set (iy := fun t : dim3 * dim3 => dy (fst t) * 1 + dy (snd t)).
  assert (Hr : forall t, In t ts -> 0 <= ix t < 2 ^ 31 /\ 0 <= iy t < 2 ^ 31).
  { intros t Ht. apply In_threads in Ht. destruct Ht as [T1 T2]. apply In_indices in T1, T2. destruct t as [[[bx by_] bz] [[tx ty] tz]]. unfold ix, iy, dx, dy, dz in *. cbn [fst snd] in *. lia. }
  rewrite (run_some _ ts (fun t => if (ix t <? Z.of_nat n) && (iy t <? Z.of_nat (b * c))
        then Some (iy t * Z.of_nat n + ix t, mean1 (k * n) k n (of_pairs (t_data x)) (Z.to_nat (iy t * Z.of_nat n + ix t))) else None)).
  2: { intros t Ht. destruct (Hr t Ht) as [R1 R2]. apply periodize1_body; try assumption; try reflexivity; unfold C in *; rewrite El; [nia|exact Hx]. }
  eexists. split; [reflexivity|]. intros a Ha. apply in_map_iff in Ha. destruct Ha as (w & <- & Hw). apply in_flat_map in Hw. destruct Hw as (t & Ht & Hw).
  destruct ((ix t <? Z.of_nat n) && (iy t <? Z.of_nat (b * c))) eqn:E; [|destruct Hw]. destruct Hw as [<-|[]]. cbn [fst]. apply andb_true_iff in E. rewrite !Z.ltb_lt in E. nia.
Qed.
Print Assumptions C58_five_axes_refuted.

(** 2-D subsampling of images of k*h lines and k*w columns: the grid has as many blocks along x as 32 divides into the height, and
    the kernel takes x for the column.  Every cell is written exactly once, with PyTorch's value, exactly when the height and the width
    of the output take the same number of blocks of 32; otherwise some cell is never written, so that the result depends
    on the initial contents of the output.  Missing from the full claim: those images. *)
Theorem C58_subsample_2d_partial : forall x pre k h w, t_shape x = (pre ++ [k * h; k * w; 2])%nat ->
  length (t_data x) = (prod pre * (k * h * (k * w)) * 2)%nat -> t_contig x = true ->
  (0 < k)%nat -> (0 < h)%nat -> (0 < w)%nat -> (0 < prod pre)%nat -> Z.of_nat (prod pre) <= 65535 -> Z.of_nat (prod pre * (k * h * (k * w))) < 2 ^ 31 ->
  Z.of_nat w <= 65535 * 32 ->
  let n := (prod pre * (h * w))%nat in
  exists ws r l, cuda_subsample2 x k = Ok ((pre ++ [h; w; 2])%nat, Some ws) /\ t_subsample2 x k = Ok r /\ t_shape r = (pre ++ [h; w; 2])%nat /\ t_data r = to_pairs l /\
    NoDup (map fst ws) /\
    ((h + 31) / 32 = (w + 31) / 32 -> each_once n ws /\ leaves n ws l)%nat /\
    ((h + 31) / 32 <> (w + 31) / 32 -> (exists p, p < n /\ ~ In (Z.of_nat p) (map fst ws)) /\ forall l', ~ leaves n ws l')%nat.
Proof.
  intros x pre k h w Hs Hl Hc Hk Hh Hw HB HB' Hx Hw' n. destruct (flat_of_pairs _ _ Hl) as [Ef El].
  assert (Ed : forall q, (k * q / k = q)%nat) by (intros q; rewrite Nat.mul_comm; apply Nat.div_mul; lia).
  assert (Gb : forall q, (0 < q)%nat -> get_blocks (Z.of_nat q) 32 = Z.of_nat ((q + 31) / 32)) by (intros q Hq; unfold get_blocks; rewrite Nat2Z.inj_div; f_equal; lia).
  set (bh := ((h + 31) / 32)%nat) in *. set (bw := ((w + 31) / 32)%nat) in *.
  assert (Bh : (h <= bh * 32 < h + 32)%nat). { unfold bh. pose proof (Nat.div_mod (h + 31) 32 ltac:(lia)). pose proof (Nat.mod_upper_bound (h + 31) 32 ltac:(lia)). lia. }
  assert (Bw : (w <= bw * 32 < w + 32)%nat). { unfold bw. pose proof (Nat.div_mod (w + 31) 32 ltac:(lia)). pose proof (Nat.mod_upper_bound (w + 31) 32 ltac:(lia)). lia. }
  assert (Hhx : (h <= prod pre * (k * h * (k * w)))%nat).
  { assert (h <= k * h)%nat by nia. assert (1 <= k * w)%nat by nia. assert (k * h <= k * h * (k * w))%nat by nia. assert (1 <= k * h * (k * w))%nat by nia. nia. }
  assert (P31 : 2 ^ 31 = 2147483648) by reflexivity. rewrite P31 in Hx.
  destruct (periodize2_launch (Z.of_nat bh) (Z.of_nat bw) (prod pre) k h w (of_pairs (t_data x))) as (ws & EL & H1 & H2); try assumption.
  { unfold C in *. rewrite El, P31. exact Hx. }
  { lia. }
  { rewrite P31. lia. }
  { lia. }
  set (l := map (mean2 h w k (of_pairs (t_data x))) (seq 0 n)).
  exists ws. eexists. exists l.
  assert (Si : split_image (t_shape x) = Ok (pre, k * h, k * w, 2)%nat) by (rewrite Hs; unfold split_image; rewrite rev_app_distr; cbn; now rewrite rev_involutive).
  assert (Sl : exists q, split_last (t_shape x) = Ok (q, 2%nat)) by (rewrite Hs; unfold split_last; rewrite rev_app_distr; cbn; eauto). destruct Sl as (ql & Sl).
  unfold cuda_subsample2, t_subsample2, t_contiguous_check, t_complex_check. rewrite Hc, Si, Sl. cbn [bind negb raise_if Nat.eqb].
  rewrite (proj2 (Nat.eqb_neq (k * h * (k * w)) 0)), (proj2 (Nat.eqb_neq k 0)) by nia. rewrite !Ed, !Gb by assumption. fold bh bw. rewrite EL. cbn [bind].
  split; [reflexivity|]. rewrite !Nat.eqb_refl. cbn [andb orb]. split; [reflexivity|]. split; [reflexivity|]. split.
  { cbn [t_data]. rewrite <- Ef at 1. unfold l, n. now apply periodize_images. }
  split; [exact H1|].
  assert (Hval : forall v, In v ws -> snd v = mean2 h w k (of_pairs (t_data x)) (Z.to_nat (fst v))).
  { intros [a v] Hv. apply H2 in Hv. destruct Hv as (tz & ty & tx & _ & _ & _ & Ea & Ev). cbn [fst snd]. rewrite Ev. f_equal. rewrite Ea. symmetry. apply Nat2Z.id. }
  assert (Haddr : forall p, In (Z.of_nat p) (map fst ws) <-> exists tz ty tx, (tz < prod pre /\ ty < h /\ tx < w /\ ty < bw * 32 /\ tx < bh * 32 /\ p = tz * (h * w) + ty * w + tx)%nat).
  { intros p. rewrite in_map_iff. split.
    - intros ([a v] & E & Hv). cbn [fst] in E. subst a. apply H2 in Hv. destruct Hv as (tz & ty & tx & Hr & Hy & Hxx & Ea & Ev). exists tz, ty, tx. lia.
    - intros (tz & ty & tx & Hz & Hy & Hxx & Hy' & Hx' & Ep). exists (Z.of_nat p, mean2 h w k (of_pairs (t_data x)) p). split; [reflexivity|]. apply H2. exists tz, ty, tx.
      cbn zeta. rewrite <- Ep. split; [lia|]. split; [lia|]. split; [lia|]. split; reflexivity. }
  split.
  - intros E. assert (Hw2 : (w <= bh * 32)%nat) by (rewrite E; lia). assert (Hh2 : (h <= bw * 32)%nat) by (rewrite <- E; lia).
    assert (Ho : each_once n ws).
    { apply NoDup_Permutation; [exact H1|apply FinFun.Injective_map_NoDup; [intros u v; lia|apply seq_NoDup]|]. intros a. split.
      - intros Ha. assert (exists p, a = Z.of_nat p) as (p & ->). { apply in_map_iff in Ha. destruct Ha as ([a' v] & <- & Hv). apply H2 in Hv. destruct Hv as (tz & ty & tx & _ & _ & _ & -> & _). cbn [fst]. eauto. }
        apply Haddr in Ha. destruct Ha as (tz & ty & tx & Hz & Hy & Hxx & _ & _ & ->). apply in_map, in_seq. unfold n. split; [lia|]. rewrite Nat.add_0_l.
        assert (ty * w + tx < h * w)%nat by nia. nia.
      - intros Ha. apply in_map_iff in Ha. destruct Ha as (p & <- & Hp). apply in_seq in Hp. apply Haddr.
        destruct (pixel_split h w (prod pre) p Hh Hw ltac:(unfold n in Hp; lia)) as (tz & ty & tx & Hz & Hy & Hxx & Ep). exists tz, ty, tx. lia. }
    split; [exact Ho|]. intros ws' init Hp Hi. unfold l. now apply (store_all _ ws).
  - intros E. assert (Hex : exists p, (p < n)%nat /\ ~ In (Z.of_nat p) (map fst ws)).
    { destruct (Nat.lt_ge_cases bh bw) as [L|L].
      - exists (bh * 32)%nat. assert (bh * 32 < w)%nat by lia. split; [unfold n; assert (w <= h * w)%nat by nia; nia|]. rewrite Haddr. intros (tz & ty & tx & Hz & Hy & Hxx & Hy' & Hx' & Ep).
        destruct (pixel_coords h w tz ty tx Hxx Hy) as (_ & _ & Q3). rewrite <- Ep, Nat.mod_small in Q3 by assumption. lia.
      - assert (L' : (bw < bh)%nat) by lia. exists (bw * 32 * w)%nat. assert (bw * 32 < h)%nat by lia. split; [unfold n; assert (bw * 32 * w < h * w)%nat by nia; nia|].
        rewrite Haddr. intros (tz & ty & tx & Hz & Hy & Hxx & Hy' & Hx' & Ep). destruct (pixel_coords h w tz ty tx Hxx Hy) as (_ & Q2 & _). cbn zeta in Q2.
        rewrite <- Ep, Nat.div_mul, Nat.mod_small in Q2 by lia. lia. }
    split; [exact Hex|]. intros l' Hlv. destruct Hex as (p & Hp & Hnot).
    assert (K : forall c : C, nth p (store ws (repeat c n)) c = c).
    { intros c. rewrite (store_nth (mean2 h w k (of_pairs (t_data x)))); rewrite ?repeat_length; [|intros v Hv; split; [|now apply Hval]|exact Hp].
      - replace (existsb (fun w0 : Z * C => fst w0 =? Z.of_nat p) ws) with false; [apply nth_repeat|]. symmetry. apply not_true_iff_false. intros T. apply existsb_exists in T.
        destruct T as (v & Hv & Ev). apply Z.eqb_eq in Ev. apply Hnot. rewrite <- Ev. now apply in_map.
      - destruct v as [a v]. cbn [fst]. apply H2 in Hv. destruct Hv as (tz & ty & tx & (Hz & Hy & Hxx) & _ & _ & -> & _). split; [lia|]. apply inj_lt. unfold n.
        assert (ty * w + tx < h * w)%nat by nia. nia. }
    pose proof (K (RtoC 0)) as K0. pose proof (K (RtoC 1)) as K1.
    rewrite (Hlv ws (repeat (RtoC 0) n) (Permutation_refl _) (repeat_length _ _)) in K0. rewrite (Hlv ws (repeat (RtoC 1) n) (Permutation_refl _) (repeat_length _ _)) in K1.
    assert (Hl' : length l' = n). { rewrite <- (Hlv ws (repeat (RtoC 0) n) (Permutation_refl _) (repeat_length _ _)), store_length. apply repeat_length. }
    rewrite (nth_indep l' _ (RtoC 1)) in K0 by lia. rewrite K1 in K0. apply RtoC_inj in K0. now apply R1_neq_R0.
Qed.
Print Assumptions C58_subsample_2d_partial.

(** One image of 1 by 33 pixels: the last pixel of the output, subsampled by k, is never written. *)
Theorem C58_subsample_2d_refuted : forall k (d : list R), (0 < k)%nat -> Z.of_nat (k * 1 * (k * 33)) < 2 ^ 31 -> length d = (k * 1 * (k * 33) * 2)%nat ->
  let x := mk_t F32 [k * 1; k * 33; 2]%nat d true in
  exists ws, cuda_subsample2 x k = Ok ([1; 33; 2]%nat, Some ws) /\ ~ each_once 33 ws /\ forall l, ~ leaves 33 ws l.
Proof.
  intros k d Hk Hx Hd x.
  destruct (C58_subsample_2d_partial x [] k 1 33) as (ws & r & l & E & _ & _ & _ & _ & _ & H); try reflexivity; try lia.
  { cbn [prod fold_right x t_data]. rewrite Hd. lia. }
  { cbn [prod fold_right]. lia. }
  { cbn [prod fold_right]. lia. }
  { cbn [prod fold_right]. rewrite Nat.mul_1_l. exact Hx. }
  exists ws. split; [exact E|]. destruct H as [(p & Hp & Hn) Hl]; [vm_compute; discriminate|]. split; [|exact Hl].
  intros Ho. apply Hn. unfold each_once in Ho. rewrite Ho. apply in_map, in_seq. cbn in Hp. lia.
Qed.
Print Assumptions C58_subsample_2d_refuted.

(** A batch of 4 signals of 256 samples subsampled by 8, 6 images of 40 by 64 pixels subsampled by 2, and the modulus of the signals. *)
Example C58_instance :
  let x := mk_t F32 [4; 1; 8 * 32; 2]%nat (repeat 1%R (4 * 1 * (8 * 32) * 2)) true in
  let y := mk_t F32 [3; 2; 2 * 20; 2 * 32; 2]%nat (repeat 1%R (3 * 2 * (2 * 20 * (2 * 32)) * 2)) true in
  (exists ws r, cuda_modulus x = Ok ([4; 1; 8 * 32; 1]%nat, Some ws) /\ t_modulus x = Ok r /\ leaves 1024 ws (t_data r)) /\
  (exists ws r l, cuda_subsample1 x 8 = Ok ([4; 1; 32; 2]%nat, Some ws) /\ t_subsample x (PInt 8) = Ok r /\ leaves 128 ws l /\ t_data r = to_pairs l) /\
  (exists ws r l, cuda_subsample2 y 2 = Ok ([3; 2; 20; 32; 2]%nat, Some ws) /\ t_subsample2 y 2 = Ok r /\ leaves 3840 ws l /\ t_data r = to_pairs l).
Proof.
  intros x y. split; [|split].
  - destruct (C58_modulus x [4; 1; 8 * 32]%nat) as (ws & r & E1 & E2 & _ & _ & Hl); try (unfold x; reflexivity); try (unfold prod; cbn [fold_right]; lia).
    + exists ws, r. auto.
  - destruct (C58_subsample_1d_partial x 4 1 8 32) as (ws & r & l & E1 & E2 & _ & _ & Hl & E3); try (unfold x; reflexivity); try lia.
    + exists ws, r, l. auto.
  - destruct (C58_subsample_2d_partial y [3; 2]%nat 2 20 32) as (ws & r & l & E1 & E2 & _ & E3 & _ & H & _); try (unfold y; reflexivity); try lia.
    + unfold prod. cbn [fold_right]. lia.
    + unfold prod. cbn [fold_right]. lia.
    + exists ws, r, l. destruct (H eq_refl) as [_ Hl]. auto.
Qed.

(** The refutations' hypotheses: one signal of 2**21 samples subsampled by 2**11, and 70000 signals. *)
Example C58_overflow_instance : let T := Z.to_nat (2 ^ 21) in let k := Z.to_nat (2 ^ 11) in
  cuda_subsample1 (mk_t F32 [1; 1; T; 2]%nat (repeat 1%R (T * 2)) true) k = Ok ([1; 1; T / k; 2]%nat, None).
Proof.
  intros T k. assert (ET : Z.of_nat T = 2 ^ 21) by (apply Z2Nat.id; lia). assert (Ek : Z.of_nat k = 2 ^ 11) by (apply Z2Nat.id; lia). clearbody T k.
  apply C58_overflow_refuted; try reflexivity; lia.
Qed.
Example C58_grid_instance : let b := Z.to_nat 70000 in
  cuda_subsample1 (mk_t F32 [b; 1; 2 * 4; 2]%nat (repeat 1%R (b * 16)) true) 2 = Err RuntimeError.
Proof.
  intros b. assert (Eb : Z.of_nat b = 70000) by (apply Z2Nat.id; lia). clearbody b. apply (C58_grid_refuted _ b 1 2 4); try reflexivity; lia.
Qed.
Example C58_five_axes_instance : exists ws, cuda_subsample1 (mk_t F32 [1; 1; 2 * 4; 2 * 8; 2]%nat (repeat 1%R 256) true) 2 = Ok ([1; 1; 8; 8; 2]%nat, Some ws) /\
  forall a, In a (map fst ws) -> a < 4.
Proof. apply (C58_five_axes_refuted _ 1 1 4 2 8); try reflexivity; cbn; lia. Qed.
