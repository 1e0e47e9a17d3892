(** Proofs about the CUDA kernels: the 2-D periodization launch, and limits of the launches. *)
From Coq Require Import Reals ZArith List Bool Arith Lia Permutation.
From Coquelicot Require Import Complex.
From Verif Require Import Base NdArray Backend NdProofs ComplexOps Dft Dft2 Conv1d Torch1d TorchRel Cuda CudaProofs.
Import ListNotations.
Local Open Scope Z_scope.

(** ** The 2-D periodization kernel, H = k * h and W = k * w *)
Definition mean2 (h w k : nat) (x : list C) (p : nat) : C :=
  (csum k (fun j => csum k (fun i =>
     nth (p / (h * w) * (k * h * (k * w)) + ((j * h + p / w mod h) * (k * w) + (i * w + p mod w))) x (RtoC 0))) / RtoC (INR (k * k)))%C.
Lemma pixel_coords h w tz ty tx : (tx < w)%nat -> (ty < h)%nat -> let p := (tz * (h * w) + ty * w + tx)%nat in
  (p / (h * w) = tz /\ p / w mod h = ty /\ p mod w = tx)%nat.
Proof.
  intros Hx Hy p. assert (E1 : (p mod w = tx)%nat).
  { unfold p. replace (tz * (h * w) + ty * w + tx)%nat with (tx + (tz * h + ty) * w)%nat by ring. rewrite Nat.mod_add, Nat.mod_small by lia. reflexivity. }
  assert (E2 : (p / w = tz * h + ty)%nat).
  { unfold p. replace (tz * (h * w) + ty * w + tx)%nat with (tx + (tz * h + ty) * w)%nat by ring. rewrite Nat.div_add, Nat.div_small by lia. reflexivity. }
  split; [|split; [|exact E1]].
  - rewrite (Nat.mul_comm h w), <- Nat.div_div, E2 by lia. rewrite Nat.div_add_l, Nat.div_small by lia. lia.
  - rewrite E2, Nat.add_comm, Nat.mod_add, Nat.mod_small by lia. reflexivity.
Qed.
Lemma mul_ge_r a b : 1 <= a -> 0 <= b -> b <= a * b.
Proof. nia. Qed.
(** Products as atoms. *)
Ltac atomize := repeat match goal with
  | |- context [?a * ?b] => let v := fresh "v" in set (v := a * b) in *; clearbody v
  | H : context [?a * ?b] |- _ => let v := fresh "v" in set (v := a * b) in *; clearbody v
  end.
(** All the indices computed by a thread inside of the output. *)
Lemma thread_bounds B k h w tz ty tx n : 1 <= k -> 1 <= h -> 1 <= w -> 0 <= tz < B -> 0 <= ty < h -> 0 <= tx < w -> n = B * (k * h * (k * w)) ->
  let H := k * h in let W := k * w in
  0 <= tz * H <= n /\ 0 <= tz * H * W <= n /\ 0 <= ty * W <= n /\ 0 <= tz * H * W + ty * W <= n /\ 0 <= tz * H * W + ty * W + tx < n /\
  0 <= k * k <= n /\ 0 <= tz * h /\ 0 <= tz * h * W <= n /\ 0 <= tz * (h * w) /\ 0 <= ty * w /\ tz * (h * w) + ty * w + tx < n /\
  forall j i, 0 <= j < k -> 0 <= i < k -> 0 <= j * H <= n /\ 0 <= j * h /\ 0 <= j * h * W <= n /\ 0 <= i * W <= n /\ 0 <= i * w /\ 0 <= j * h * W + i * w <= n /\
    0 <= tz * H * W + ty * W + tx + (j * h * W + i * w) < n.
Proof.
  intros Hk Hh Hw Hz Hy Hx En H W. subst n. change (k * h * (k * w)) with (H * W).
  assert (S1 : h <= H) by (apply mul_ge_r; lia). assert (S2 : w <= W) by (apply mul_ge_r; lia).
  assert (S3 : k <= H) by (unfold H; rewrite Z.mul_comm; apply mul_ge_r; lia). assert (S4 : k <= W) by (unfold W; rewrite Z.mul_comm; apply mul_ge_r; lia).
  assert (J1 : forall j, 0 <= j < k -> j * h + h <= H). { intros j Hj. unfold H. replace (j * h + h) with ((j + 1) * h) by ring. apply Z.mul_le_mono_nonneg_r; lia. }
  assert (I1 : forall i, 0 <= i < k -> i * w + w <= W). { intros i Hi. unfold W. replace (i * w + w) with ((i + 1) * w) by ring. apply Z.mul_le_mono_nonneg_r; lia. }
  clearbody H W.
  assert (Z0 : 0 <= tz * (H * W)) by (apply Z.mul_nonneg_nonneg; [lia|apply Z.mul_nonneg_nonneg; lia]).
  assert (L1 : tz * (H * W) + H * W <= B * (H * W)). { replace (tz * (H * W) + H * W) with ((tz + 1) * (H * W)) by ring. apply Z.mul_le_mono_nonneg_r; [apply Z.mul_nonneg_nonneg; lia|lia]. }
  assert (L2 : forall a, 0 <= a -> a <= H - 1 -> 0 <= a * W /\ a * W + W <= H * W).
  { intros a A1 A2. split; [apply Z.mul_nonneg_nonneg; lia|]. replace (a * W + W) with ((a + 1) * W) by ring. apply Z.mul_le_mono_nonneg_r; lia. }
  assert (L3 : forall a b, 0 <= a <= k -> 0 <= b -> 0 <= a * b <= k * b) by (intros a b A1 A2; split; [apply Z.mul_nonneg_nonneg; lia|apply Z.mul_le_mono_nonneg_r; lia]).
  assert (L4 : forall b, 0 <= b <= H -> k * b <= H * W). { intros b Hb. rewrite (Z.mul_comm H W). apply Z.mul_le_mono_nonneg; lia. }
  assert (L5 : k * W <= H * W) by (apply Z.mul_le_mono_nonneg_r; lia).
  assert (E1 : tz * H * W = tz * (H * W)) by ring.
  assert (Q0 : 0 <= tz * H) by (apply Z.mul_nonneg_nonneg; lia).
  assert (Q1 : tz * H <= tz * H * W) by (rewrite <- (Z.mul_1_r (tz * H)) at 1; apply Z.mul_le_mono_nonneg_l; lia).
  destruct (L2 ty) as [Y1 Y2]; [lia|lia|].
  assert (Q2 : 0 <= tz * h) by (apply Z.mul_nonneg_nonneg; lia).
  assert (Q3 : tz * h <= tz * H) by (apply Z.mul_le_mono_nonneg_l; lia).
  assert (Q4 : 0 <= tz * h * W <= tz * H * W) by (split; [apply Z.mul_nonneg_nonneg; lia|apply Z.mul_le_mono_nonneg_r; lia]).
  assert (Q5 : 0 <= tz * (h * w)) by (apply Z.mul_nonneg_nonneg; [lia|apply Z.mul_nonneg_nonneg; lia]).
  assert (Q6 : tz * (h * w) <= tz * (H * W)) by (apply Z.mul_le_mono_nonneg_l; [lia|apply Z.mul_le_mono_nonneg; lia]).
  assert (Q7 : 0 <= ty * w <= ty * W) by (split; [apply Z.mul_nonneg_nonneg; lia|apply Z.mul_le_mono_nonneg_l; lia]).
  assert (Q8 : 0 <= k * k) by (apply Z.mul_nonneg_nonneg; lia). pose proof (L4 k ltac:(lia)) as Q9.
  rewrite E1 in *. clear E1.
  do 11 (split; [clear J1 I1 L2 L3 L4; atomize; lia|]). intros j i Hj Hi.
  specialize (J1 j Hj). specialize (I1 i Hi).
  assert (J2 : 0 <= j * h) by (apply Z.mul_nonneg_nonneg; lia).
  assert (J3 : 0 <= (j * h + ty) * W /\ (j * h + ty) * W + W <= H * W) by (apply L2; lia).
  rewrite Z.mul_add_distr_r in J3.
  assert (W0 : 0 <= W) by (clear - S2 Hw; lia). assert (H0 : 0 <= H) by (clear - S1 Hh; lia).
  assert (J4 : 0 <= j * h * W) by (apply Z.mul_nonneg_nonneg; assumption).
  assert (I2 : 0 <= i * w) by (apply Z.mul_nonneg_nonneg; lia).
  assert (G1 : 0 <= j * H <= k * H) by (apply L3; [clear - Hj; lia|assumption]). assert (G2 : k * H <= H * W) by (apply L4; clear - H0; lia).
  assert (G3 : 0 <= i * W <= k * W) by (apply L3; [clear - Hi; lia|assumption]).
  clear L2 L3 L4. atomize. do 6 (split; [lia|]). lia.
Qed.
Lemma periodize2_body B k h w x bl t : dx bl = 32 -> dy bl = 32 -> dz bl = 1 -> (0 < k)%nat -> (0 < h)%nat -> (0 < w)%nat ->
  length x = (B * (k * h * (k * w)))%nat -> Z.of_nat (length x) < 2 ^ 31 ->
  let tx := dx (fst t) * 32 + dx (snd t) in let ty := dy (fst t) * 32 + dy (snd t) in let tz := dz (fst t) * 1 + dz (snd t) in
  0 <= tx < 2 ^ 31 -> 0 <= ty < 2 ^ 31 -> 0 <= tz < 2 ^ 31 ->
  let p := tz * (Z.of_nat h * Z.of_nat w) + ty * Z.of_nat w + tx in
  periodize2 bl (Z.of_nat B) (Z.of_nat (k * h)) (Z.of_nat (k * w)) (Z.of_nat k) x t =
  Some (if (tx <? Z.of_nat w) && (ty <? Z.of_nat h) && (tz <? Z.of_nat B) then Some (p, mean2 h w k x (Z.to_nat p)) else None).
Proof.
  intros Bx By Bz Hk Hh Hw Hl Hx tx ty tz Htx Hty Htz p. unfold periodize2, thread_x, thread_y, thread_z. rewrite Bx, By, Bz. fold tx. fold ty. fold tz.
  rewrite !int32_pos by assumption. cbn [obind].
  assert (Eq : forall n, Z.quot (Z.of_nat (k * n)) (Z.of_nat k) = Z.of_nat n) by (intros n; rewrite Nat2Z.inj_mul, Z.mul_comm; apply quot_mul; lia).
  rewrite !Eq. rewrite !Z.geb_leb, (Z.leb_antisym tx), (Z.leb_antisym ty), (Z.leb_antisym tz), <- !negb_andb.
  destruct ((tx <? Z.of_nat w) && (ty <? Z.of_nat h) && (tz <? Z.of_nat B)) eqn:Ea; [|reflexivity]. cbn [negb].
  apply andb_true_iff in Ea. destruct Ea as [Ea Az]. apply andb_true_iff in Ea. rewrite !Z.ltb_lt in Ea. rewrite Z.ltb_lt in Az. destruct Ea as [Ax Ay].
  set (h' := Z.of_nat h) in *. set (w' := Z.of_nat w) in *. set (k' := Z.of_nat k) in *. set (B' := Z.of_nat B) in *.
  assert (EH : Z.of_nat (k * h) = k' * h') by (unfold k', h'; lia). assert (EW : Z.of_nat (k * w) = k' * w') by (unfold k', w'; lia). rewrite EH, EW in *.
  destruct (thread_bounds B' k' h' w' tz ty tx (Z.of_nat (length x))) as (T1 & T2 & T3 & T4 & T5 & T6 & T7 & T8 & T9 & T10 & T11 & T12);
    [unfold k'; lia|unfold h'; lia|unfold w'; lia|lia|lia|lia|rewrite Hl; unfold B', k', h', w'; lia|].
  assert (Kp : 0 < k') by (unfold k'; lia).
  assert (I : forall z, 0 <= z <= Z.of_nat (length x) -> int32 z = Some z) by (intros z Hz; apply int32_pos; clear - Hz Hx; lia).
  assert (I' : forall z, 0 <= z < Z.of_nat (length x) -> int32 z = Some z) by (intros z Hz; apply I; clear - Hz; lia).
  assert (Qh : forall a, 0 <= a * h' -> Z.quot (a * (k' * h')) k' = a * h') by (intros a Ha; replace (a * (k' * h')) with (a * h' * k') by ring; now apply quot_mul).
  assert (Qw : forall a, 0 <= a * w' -> Z.quot (a * (k' * w')) k' = a * w') by (intros a Ha; replace (a * (k' * w')) with (a * w' * k') by ring; now apply quot_mul).
  set (HH := k' * h') in *. set (WW := k' * w') in *.
  rewrite (I _ T1). cbn [obind]. rewrite (I _ T2). cbn [obind]. rewrite (I _ T3). cbn [obind]. rewrite (I _ T4). cbn [obind]. rewrite (I' _ T5). cbn [obind].
  rewrite (c_for_sum _ _ _ (fun j => csum k (fun i => nth (Z.to_nat (tz * HH * WW + ty * WW + tx + (j * h' * WW + Z.of_nat i * w'))) x (RtoC 0)))).
  - cbn [obind]. rewrite (I _ T6). cbn [obind]. rewrite (Qh tz T7), (I _ T8). cbn [obind].
    assert (E2 : tz * h' * w' = tz * (h' * w')) by ring. rewrite (Qw (tz * h')), E2 by (rewrite E2; exact T9). rewrite (Qw ty T10).
    assert (T13 : 0 <= p < Z.of_nat (length x)). { unfold p. split; [|exact T11]. apply Z.add_nonneg_nonneg; [apply Z.add_nonneg_nonneg; assumption|apply Htx]. }
    assert (T14 : 0 <= tz * (h' * w') + ty * w' <= Z.of_nat (length x)). { split; [apply Z.add_nonneg_nonneg; assumption|]. unfold p in T13. destruct Htx as [Htx _]. clear - T13 Htx. lia. }
    rewrite (I _ T14). cbn [obind]. fold p. rewrite (I' _ T13). cbn [obind].
    rewrite (proj2 (Z.ltb_ge p 0)) by (apply T13). do 3 f_equal.
    replace (k' * k') with (Z.of_nat (k * k)) by (unfold k'; clear; lia). rewrite mean_pair by (clear - Hk; nia). unfold mean2. f_equal. unfold k' at 1. rewrite Nat2Z.id, Cplus_0_l.
    destruct (pixel_coords h w (Z.to_nat tz) (Z.to_nat ty) (Z.to_nat tx)) as (P1 & P2 & P3); [unfold w' in Ax; clear - Ax Hw; lia|unfold h' in Ay; clear - Ay Hh; lia|].
    assert (Z1 : tz = Z.of_nat (Z.to_nat tz)) by (destruct Htz as [Hz0 _]; clear - Hz0; lia). assert (Z2 : ty = Z.of_nat (Z.to_nat ty)) by (destruct Hty as [Hz0 _]; clear - Hz0; lia).
    assert (Z3 : tx = Z.of_nat (Z.to_nat tx)) by (destruct Htx as [Hz0 _]; clear - Hz0; lia).
    assert (Ep : (Z.to_nat p = Z.to_nat tz * (h * w) + Z.to_nat ty * w + Z.to_nat tx)%nat).
    { unfold p, h', w'. rewrite Z1, Z2, Z3 at 1. generalize (Z.to_nat tz) (Z.to_nat ty) (Z.to_nat tx). clear. intros. lia. }
    rewrite Ep, P1, P2, P3. apply csum_ext. intros j Hj. apply csum_ext. intros i Hi. f_equal. unfold HH, WW, k', h', w'. rewrite Z1, Z2, Z3 at 1.
    generalize (Z.to_nat tz) (Z.to_nat ty) (Z.to_nat tx). clear. intros. lia.
  - intros j a Hj. unfold k' in Hj at 1. rewrite Nat2Z.id in Hj. fold k' in Hj. rewrite Z.add_0_l in Hj.
    rewrite (c_for_sum _ _ _ (fun i => nth (Z.to_nat (tz * HH * WW + ty * WW + tx + (j * h' * WW + i * w'))) x (RtoC 0))).
    + f_equal. f_equal. unfold k'. now rewrite Nat2Z.id.
    + intros i b Hi. unfold k' in Hi at 1. rewrite Nat2Z.id in Hi. fold k' in Hi. rewrite Z.add_0_l in Hi.
      destruct (T12 j i Hj Hi) as (M1 & M2 & M3 & M4 & M5 & M6 & M7).
      rewrite (I _ M1). cbn [obind]. rewrite (Qh j M2), (I _ M3). cbn [obind]. rewrite (I _ M4). cbn [obind]. rewrite (Qw i M5), (I _ M6). cbn [obind].
      rewrite (load_ok x _ (RtoC 0) M7). reflexivity.
Qed.

(** Writes of a run, whatever the addresses covered. *)
Lemma run_writes {V} (body : dim3 * dim3 -> option (option (Z * V))) ts (act : dim3 * dim3 -> bool) addr val : NoDup ts ->
  (forall t, In t ts -> body t = Some (if act t then Some (addr t, val t) else None)) ->
  (forall t u, In t ts -> In u ts -> act t = true -> act u = true -> addr t = addr u -> t = u) ->
  exists ws, run_threads body ts = Some ws /\ NoDup (map fst ws) /\
    forall w, In w ws <-> exists t, In t ts /\ act t = true /\ w = (addr t, val t).
Proof.
  intros Hnd Hb Hinj. eexists. split; [apply run_some, Hb|]. split.
  - clear Hb. induction Hnd as [|t ts Ht Hnd IH]; cbn; [constructor|].
    assert (IH' : NoDup (map fst (flat_map (fun t => emitted (if act t then Some (addr t, val t) else None)) ts)))
      by (apply IH; intros u v Hu Hv; apply Hinj; now right).
    destruct (act t) eqn:Ea; cbn; [|exact IH']. constructor; [|exact IH']. intros K. apply in_map_iff in K. destruct K as (w & Ew & Hw).
    apply in_flat_map in Hw. destruct Hw as (u & Hu & Hw). destruct (act u) eqn:Eu; cbn in Hw; [|destruct Hw]. destruct Hw as [<-|[]]. cbn in Ew.
    assert (t = u) by (apply Hinj; auto; [now left|now right]). now subst u.
  - intros w. rewrite in_flat_map. split.
    + intros (t & Ht & Hw). exists t. destruct (act t); cbn in Hw; [|destruct Hw]. destruct Hw as [<-|[]]. auto.
    + intros (t & Ht & Ha & ->). exists t. split; [exact Ht|]. rewrite Ha. now left.
Qed.

(** With a grid of gx * gy * B blocks of 32 * 32 threads, the columns below gx * 32 and the lines below gy * 32 are written. *)
Lemma periodize2_launch gx gy B k h w x : (0 < k)%nat -> (0 < h)%nat -> (0 < w)%nat -> (0 < B)%nat ->
  length x = (B * (k * h * (k * w)))%nat -> Z.of_nat (length x) < 2 ^ 31 -> Z.of_nat B <= 65535 ->
  1 <= gx -> gx * 32 <= 2 ^ 31 -> 1 <= gy <= 65535 ->
  exists ws, launch (gx, gy, get_blocks (Z.of_nat B) 1) (32, 32, 1)
               (periodize2 (32, 32, 1) (Z.of_nat B) (Z.of_nat (k * h)) (Z.of_nat (k * w)) (Z.of_nat k) x) = Ok (Some ws) /\
    NoDup (map fst ws) /\
    forall a v, In (a, v) ws <-> exists tz ty tx, (tz < B /\ ty < h /\ tx < w)%nat /\ Z.of_nat ty < gy * 32 /\ Z.of_nat tx < gx * 32 /\
      let p := (tz * (h * w) + ty * w + tx)%nat in a = Z.of_nat p /\ v = mean2 h w k x p.
Proof.
  intros Hk Hh Hw HB Hl Hx HB' Gx Gx' Gy.
  assert (EB : get_blocks (Z.of_nat B) 1 = Z.of_nat B) by (unfold get_blocks; rewrite Z.div_1_r; lia). rewrite EB.
  assert (P1 : 2 ^ 31 = 2147483648) by reflexivity.
  unfold launch. rewrite grid_accepted; [|unfold dx; cbn [fst snd]; lia|unfold dy; cbn [fst snd]; lia|unfold dz; cbn [fst snd]; lia].
  set (ix := fun t : dim3 * dim3 => dx (fst t) * 32 + dx (snd t)). set (iy := fun t : dim3 * dim3 => dy (fst t) * 32 + dy (snd t)).
  set (iz := fun t : dim3 * dim3 => dz (fst t) * 1 + dz (snd t)).
  assert (Hid : forall t, In t (threads (gx, gy, Z.of_nat B) (32, 32, 1)) -> 0 <= ix t < gx * 32 /\ 0 <= iy t < gy * 32 /\ 0 <= iz t < Z.of_nat B /\
    t = ((ix t / 32, iy t / 32, iz t), (ix t mod 32, iy t mod 32, 0))).
  { intros [[[bx by_] bz] [[tx ty] tz]] Ht. apply In_threads in Ht. destruct Ht as [H1 H2]. apply In_indices in H1, H2. unfold ix, iy, iz, dx, dy, dz in *. cbn [fst snd] in *.
    split; [lia|]. split; [lia|]. split; [lia|]. assert (tz = 0) as -> by lia. replace (bz * 1 + 0) with bz by lia.
    rewrite !Z.div_add_l, !Z.div_small, !Z.add_0_r by lia. rewrite !(Z.add_comm (_ * 32)), !Z.mod_add, !Z.mod_small by lia. reflexivity. }
  destruct (run_writes (periodize2 (32, 32, 1) (Z.of_nat B) (Z.of_nat (k * h)) (Z.of_nat (k * w)) (Z.of_nat k) x) (threads (gx, gy, Z.of_nat B) (32, 32, 1))
    (fun t => (ix t <? Z.of_nat w) && (iy t <? Z.of_nat h) && (iz t <? Z.of_nat B)) (fun t => iz t * (Z.of_nat h * Z.of_nat w) + iy t * Z.of_nat w + ix t)
    (fun t => mean2 h w k x (Z.to_nat (iz t * (Z.of_nat h * Z.of_nat w) + iy t * Z.of_nat w + ix t)))) as (ws & E & H1 & H2).
  - apply NoDup_threads.
  - intros t Ht. destruct (Hid t Ht) as (R1 & R2 & R3 & _). apply periodize2_body; try assumption; try reflexivity; fold (ix t); fold (iy t); fold (iz t); lia.
  - intros t u Ht Hu Ha Hb E. rewrite !andb_true_iff, !Z.ltb_lt in Ha, Hb. destruct (Hid t Ht) as (R1 & S1 & T1 & ->), (Hid u Hu) as (R2 & S2 & T2 & ->).
    destruct (euclid_inj (Z.of_nat w) (iz t * Z.of_nat h + iy t) (ix t) (iz u * Z.of_nat h + iy u) (ix u)) as [E1 ->]; [lia|lia|lia|].
    destruct (euclid_inj (Z.of_nat h) (iz t) (iy t) (iz u) (iy u)) as [-> ->]; [lia|lia|exact E1|]. reflexivity.
  - exists ws. rewrite E. split; [reflexivity|]. split; [exact H1|]. intros a v. rewrite H2. split.
    + intros (t & Ht & Ha & E1). injection E1 as -> ->. rewrite !andb_true_iff, !Z.ltb_lt in Ha. destruct (Hid t Ht) as (R1 & R2 & R3 & _).
      exists (Z.to_nat (iz t)), (Z.to_nat (iy t)), (Z.to_nat (ix t)). split; [lia|]. split; [lia|]. split; [lia|]. cbn zeta.
      assert (K : iz t * (Z.of_nat h * Z.of_nat w) + iy t * Z.of_nat w + ix t = Z.of_nat (Z.to_nat (iz t) * (h * w) + Z.to_nat (iy t) * w + Z.to_nat (ix t))) by nia.
      split; [exact K|]. f_equal. now rewrite K, Nat2Z.id.
    + intros (tz & ty & tx & Hr & Hy & Hxx & -> & ->).
      set (t := ((Z.of_nat tx / 32, Z.of_nat ty / 32, Z.of_nat tz), (Z.of_nat tx mod 32, Z.of_nat ty mod 32, 0)) : dim3 * dim3). exists t.
      assert (Ex : ix t = Z.of_nat tx) by (unfold ix, t, dx; cbn [fst snd]; rewrite Z.mul_comm; symmetry; now apply Z.div_mod).
      assert (Ey : iy t = Z.of_nat ty) by (unfold iy, t, dy; cbn [fst snd]; rewrite Z.mul_comm; symmetry; now apply Z.div_mod).
      assert (Ez : iz t = Z.of_nat tz) by (unfold iz, t, dz; cbn [fst snd]; lia).
      split; [|split].
      * apply In_threads. pose proof (Z.mod_pos_bound (Z.of_nat tx) 32 ltac:(lia)). pose proof (Z.mod_pos_bound (Z.of_nat ty) 32 ltac:(lia)).
        split; apply In_indices; unfold dx, dy, dz, t; cbn [fst snd].
        -- split; [split; [apply Z.div_pos; lia|apply Z.div_lt_upper_bound; lia]|]. split; [split; [apply Z.div_pos; lia|apply Z.div_lt_upper_bound; lia]|lia].
        -- lia.
      * rewrite Ex, Ey, Ez, !andb_true_iff, !Z.ltb_lt. lia.
      * rewrite Ex, Ey, Ez. assert (K : Z.of_nat tz * (Z.of_nat h * Z.of_nat w) + Z.of_nat ty * Z.of_nat w + Z.of_nat tx = Z.of_nat (tz * (h * w) + ty * w + tx)) by lia.
        now rewrite K, Nat2Z.id.
Qed.
Lemma pixel_split h w B p : (0 < h)%nat -> (0 < w)%nat -> (p < B * (h * w))%nat ->
  exists tz ty tx, (tz < B /\ ty < h /\ tx < w /\ p = tz * (h * w) + ty * w + tx)%nat.
Proof.
  intros Hh Hw Hp. exists (p / (h * w))%nat, (p mod (h * w) / w)%nat, (p mod (h * w) mod w)%nat.
  pose proof (Nat.mod_upper_bound p (h * w) ltac:(nia)). split; [apply Nat.div_lt_upper_bound; nia|]. split; [apply Nat.div_lt_upper_bound; nia|].
  split; [apply Nat.mod_upper_bound; lia|]. rewrite (Nat.div_mod p (h * w)) at 1 by nia. rewrite (Nat.div_mod (p mod (h * w)) w) at 1 by lia. lia.
Qed.

(** PyTorch's 2-D periodization. *)
Lemma concat_flat ls : concat (map (flat 2) ls) = flat 2 (concat ls).
Proof. induction ls as [|r l IH]; [reflexivity|]. cbn [map concat]. unfold flat in *. now rewrite flat_map_app, IH. Qed.
Lemma periodize_image k h w img : (0 < k)%nat -> (0 < h)%nat -> (0 < w)%nat -> length img = (k * h * (k * w))%nat ->
  periodize_row real_ops k (h * w * 2) (concat (map (periodize_row real_ops k (w * 2)) (chunks (k * h) (k * w * 2) (flat 2 img)))) =
  flat 2 (map (fun p => mean2 h w k img p) (seq 0 (h * w))).
Proof.
  intros Hk Hh Hw Hl. rewrite (periodize_rows (k * h) k w img Hk Hw Hl). rewrite periodize_flat by exact Hk. f_equal.
  unfold periodize_row. apply map_ext_in. intros p Hp. apply in_seq in Hp. cbn [o_divn complex_ops]. unfold mean2.
  rewrite (Nat.div_small p (h * w)) by lia. rewrite mult_INR, RtoC_mult.
  assert (Hp2 : (p / w < h)%nat) by (apply Nat.div_lt_upper_bound; lia). rewrite (Nat.mod_small (p / w)) by exact Hp2.
  assert (K0 : RtoC (INR k) <> RtoC 0) by (intros K; apply RtoC_inj in K; revert K; apply not_0_INR; lia).
  rewrite osum_csum.
  transitivity (csum k (fun j => (csum k (fun i => nth (((j * h + p / w) * (k * w) + (i * w + p mod w)))%nat img (RtoC 0)) * / RtoC (INR k))%C) / RtoC (INR k))%C.
  - f_equal. apply csum_ext. intros r Hr. rewrite (nth_indep _ (o_zero complex_ops) (mean1 (k * w) k w img 0)) by (rewrite map_length, seq_length; nia).
    rewrite (map_nth (mean1 (k * w) k w img)), seq_nth by nia. unfold mean1. replace (0 + (r * (h * w) + p))%nat with (p + r * h * w)%nat by lia.
    rewrite Nat.div_add, Nat.mod_add by lia. unfold Cdiv. f_equal. apply csum_ext. intros i _. f_equal. nia.
  - rewrite csum_scal_r. rewrite Nat.mul_0_l. cbn [Nat.add]. field. exact K0.
Qed.
Lemma periodize_images B k h w x : (0 < k)%nat -> (0 < h)%nat -> (0 < w)%nat -> length x = (B * (k * h * (k * w)))%nat ->
  concat (map (fun image => periodize_row real_ops k (h * w * 2) (concat (map (periodize_row real_ops k (w * 2)) (chunks (k * h) (k * w * 2) image))))
              (chunks B (k * h * (k * w) * 2) (flat 2 x))) = flat 2 (map (mean2 h w k x) (seq 0 (B * (h * w)))).
Proof.
  intros Hk Hh Hw Hl. rewrite flat_chunks, map_map by lia.
  destruct (chunks_ok B (k * h * (k * w)) x Hl) as (Hc1 & Hc2 & _). rewrite Forall_forall in Hc2.
  rewrite (map_ext_in _ (fun img => flat 2 (map (fun p => mean2 h w k img p) (seq 0 (h * w))))) by (intros img Hi; apply periodize_image; auto).
  rewrite <- (map_map (fun img => map (fun p => mean2 h w k img p) (seq 0 (h * w))) (flat 2)), concat_flat. f_equal.
  rewrite (concat_rows (fun img => mean2 h w k img)) by nia. rewrite Hc1. apply map_ext_in. intros p Hp. apply in_seq in Hp.
  destruct (pixel_split h w B p Hh Hw ltac:(lia)) as (tz & ty & tx & Hz & Hy & Hx & ->).
  destruct (pixel_coords h w tz ty tx Hx Hy) as (P1 & P2 & P3). cbn zeta in P1, P2, P3.
  assert (Hq : (ty * w + tx < h * w)%nat) by nia.
  assert (P4 : ((tz * (h * w) + ty * w + tx) mod (h * w) = 0 * (h * w) + ty * w + tx)%nat).
  { replace (tz * (h * w) + ty * w + tx)%nat with (ty * w + tx + tz * (h * w))%nat by lia. rewrite Nat.mod_add by nia. rewrite Nat.mod_small by exact Hq. lia. }
  rewrite P4. destruct (pixel_coords h w 0 ty tx Hx Hy) as (Q1 & Q2 & Q3). cbn zeta in Q1, Q2, Q3.
  unfold mean2. rewrite P1, P2, P3, Q1, Q2, Q3. f_equal. apply csum_ext. intros j Hj. apply csum_ext. intros i Hi. rewrite Nat.mul_0_l, Nat.add_0_l.
  assert (Hb : ((j * h + ty) * (k * w) + (i * w + tx) < k * h * (k * w))%nat).
  { assert ((j * h + ty) + 1 <= k * h)%nat by nia. assert (i * w + tx < k * w)%nat by nia. nia. }
  change (at_ (nth tz (chunks B (k * h * (k * w)) x) []) ((j * h + ty) * (k * w) + (i * w + tx)) = at_ x (tz * (k * h * (k * w)) + ((j * h + ty) * (k * w) + (i * w + tx)))).
  rewrite at_row by assumption. reflexivity.
Qed.

(** ** Overflow of i * T in the 1-D kernel *)
Lemma c_for_none {A} k i0 (step : Z -> A -> option A) n acc : i0 <= n < i0 + Z.of_nat k -> (forall a, step n a = None) -> c_for k i0 step acc = None.
Proof.
  revert i0 acc. induction k as [|k IH]; intros i0 acc Hn H; [lia|]. cbn [c_for].
  destruct (Z.eq_dec i0 n) as [->|]; [now rewrite H|]. destruct (step i0 acc) as [a|]; [|reflexivity]. cbn [obind]. apply IH; [lia|exact H].
Qed.
Lemma periodize1_overflow B T k m x bl : (1 <= T)%nat -> (2 <= k)%nat -> m = Z.quot (Z.of_nat T) (Z.of_nat k) -> 1 <= m -> (1 <= B)%nat -> 2 ^ 31 <= (Z.of_nat k - 1) * Z.of_nat T ->
  periodize1 bl (Z.of_nat B) (Z.of_nat T) (Z.of_nat k) x ((0, 0, 0), (0, 0, 0)) = None.
Proof.
  intros HT Hk Em Hm HB Ho. unfold periodize1, thread_x, thread_y. unfold dx, dy. cbn [fst snd]. rewrite !Z.mul_0_l, Z.add_0_l, int32_pos by lia. cbn [obind].
  rewrite <- Em. rewrite !Z.geb_leb, (proj2 (Z.leb_gt m 0)), (proj2 (Z.leb_gt (Z.of_nat B) 0)) by lia. cbn [orb]. rewrite Z.mul_0_l, int32_pos by lia. cbn [obind].
  rewrite Z.add_0_l, int32_pos by lia. cbn [obind].
  rewrite (c_for_none _ _ _ (Z.of_nat k - 1)); [reflexivity|lia|]. intros a. now rewrite int32_over.
Qed.
