(** Proofs about the CUDA kernels. *)
From Coq Require Import Reals ZArith List Bool Arith Lia Permutation.
From Coquelicot Require Import Complex.
From Verif Require Import Base NdArray Backend NdProofs ComplexOps Dft Dft2 Conv1d Torch1d TorchRel Cuda.
Import ListNotations.
Local Open Scope Z_scope.
Local Ltac Zify.zify_post_hook ::= Z.div_mod_to_equations.

Lemma int32_ok z : - 2 ^ 31 <= z < 2 ^ 31 -> int32 z = Some z.
Proof. intros H. unfold int32. now rewrite (proj2 (Z.leb_le _ _)), (proj2 (Z.ltb_lt _ _)) by lia. Qed.
Lemma int32_pos z : 0 <= z < 2 ^ 31 -> int32 z = Some z.
Proof. intros H. apply int32_ok. lia. Qed.
Lemma int32_over z : 2 ^ 31 <= z -> int32 z = None.
Proof. intros H. unfold int32. rewrite (proj2 (Z.ltb_ge z _)) by lia. now rewrite andb_false_r. Qed.

Lemma In_range n z : In z (range n) <-> 0 <= z < n.
Proof. unfold range. rewrite in_map_iff. split; [intros (i & <- & Hi); apply in_seq in Hi; lia|]. intros H. exists (Z.to_nat z). rewrite in_seq. lia. Qed.
Lemma NoDup_range n : NoDup (range n).
Proof. unfold range. apply FinFun.Injective_map_NoDup; [|apply seq_NoDup]. intros a b. lia. Qed.
Lemma NoDup_app' {A} (l m : list A) : NoDup l -> NoDup m -> (forall x, In x l -> ~ In x m) -> NoDup (l ++ m).
Proof.
  intros Hl Hm H. induction Hl as [|a l Ha Hl IH]; cbn; [exact Hm|]. constructor.
  - rewrite in_app_iff. intros [K|K]; [easy|]. apply (H a); [now left|exact K].
  - apply IH. intros x Hx. apply H. now right.
Qed.
Lemma NoDup_prod {A B} (l : list A) (m : list B) : NoDup l -> NoDup m -> NoDup (list_prod l m).
Proof.
  intros Hl Hm. induction Hl as [|a l Ha Hl IH]; cbn; [constructor|]. apply NoDup_app'; [|exact IH|].
  - apply FinFun.Injective_map_NoDup; [|exact Hm]. intros x y E. now injection E.
  - intros [x y] Hx Hy. apply in_map_iff in Hx. destruct Hx as (b & E & _). injection E as <- <-. apply in_prod_iff in Hy. tauto.
Qed.
Lemma In_indices d i : In i (indices d) <-> 0 <= dx i < dx d /\ 0 <= dy i < dy d /\ 0 <= dz i < dz d.
Proof. destruct i as [[x y] z]. unfold indices, dim3. rewrite !in_prod_iff, !In_range. unfold dx, dy, dz. cbn [fst snd]. tauto. Qed.
Lemma In_threads g b t : In t (threads g b) <-> In (fst t) (indices g) /\ In (snd t) (indices b).
Proof. destruct t as [i j]. unfold threads. apply in_prod_iff. Qed.
Lemma NoDup_indices d : NoDup (indices d).
Proof. repeat apply NoDup_prod; apply NoDup_range. Qed.
Lemma NoDup_threads g b : NoDup (threads g b).
Proof. apply NoDup_prod; apply NoDup_indices. Qed.

Lemma grid_accepted g : 1 <= dx g < 2 ^ 31 -> 1 <= dy g <= 65535 -> 1 <= dz g <= 65535 -> grid_ok g = true.
Proof. intros. unfold grid_ok. rewrite !andb_true_iff, !Z.leb_le, Z.ltb_lt. lia. Qed.

(** Execution of all threads. *)
Section Run.
Context {V : Type} (body : dim3 * dim3 -> option (option (Z * V))).
Definition emitted (w : option (Z * V)) : list (Z * V) := match w with Some w => [w] | None => [] end.
Lemma run_some ts g : (forall t, In t ts -> body t = Some (g t)) -> run_threads body ts = Some (flat_map (fun t => emitted (g t)) ts).
Proof.
  induction ts as [|t ts IH]; intros H; cbn; [reflexivity|]. rewrite (H t (or_introl eq_refl)). cbn.
  rewrite IH by (intros u Hu; apply H; now right). cbn. now destruct (g t).
Qed.
Lemma run_none ts t : In t ts -> body t = None -> run_threads body ts = None.
Proof.
  induction ts as [|u ts IH]; intros H E; [destruct H|]. cbn. destruct H as [->|H]; [now rewrite E|].
  rewrite (IH H E). now destruct (body u).
Qed.

(** Threads that write with distinct addresses covering [0, n). *)
Lemma exactly_once ts (act : dim3 * dim3 -> bool) addr val n f : NoDup ts ->
  (forall t, In t ts -> body t = Some (if act t then Some (addr t, val t) else None)) ->
  (forall t u, In t ts -> In u ts -> act t = true -> act u = true -> addr t = addr u -> t = u) ->
  (forall t, In t ts -> act t = true -> 0 <= addr t < Z.of_nat n /\ val t = f (Z.to_nat (addr t))) ->
  (forall p, (p < n)%nat -> exists t, In t ts /\ act t = true /\ addr t = Z.of_nat p) ->
  exists ws, run_threads body ts = Some ws /\ Permutation (map fst ws) (map Z.of_nat (seq 0 n)) /\
    forall w, In w ws -> snd w = f (Z.to_nat (fst w)).
Proof.
  intros Hnd Hb Hinj Hin Hcov. eexists. split; [apply run_some, Hb|].
  assert (Hiff : forall w, In w (flat_map (fun t => emitted (if act t then Some (addr t, val t) else None)) ts) <->
     exists t, In t ts /\ act t = true /\ w = (addr t, val t)).
  { intros w. rewrite in_flat_map. split.
    - intros (t & Ht & Hw). exists t. destruct (act t); cbn in Hw; [|destruct Hw]. destruct Hw as [<-|[]]. auto.
    - intros (t & Ht & Ha & ->). exists t. split; [exact Ht|]. rewrite Ha. now left. }
  split.
  - apply NoDup_Permutation.
    + clear Hiff Hcov Hin Hb. induction Hnd as [|t ts Ht Hnd IH]; cbn; [constructor|].
      assert (IH' : NoDup (map fst (flat_map (fun t => emitted (if act t then Some (addr t, val t) else None)) ts)))
        by (apply IH; intros u v Hu Hv; apply Hinj; now right).
      destruct (act t) eqn:Ea; cbn; [|exact IH']. constructor; [|exact IH']. intros K. apply in_map_iff in K. destruct K as (w & Ew & Hw).
      apply in_flat_map in Hw. destruct Hw as (u & Hu & Hw). destruct (act u) eqn:Eu; cbn in Hw; [|destruct Hw]. destruct Hw as [<-|[]]. cbn in Ew.
      assert (t = u) by (apply Hinj; auto; [now left|now right]). now subst u.
    + apply FinFun.Injective_map_NoDup; [intros a b; lia|apply seq_NoDup].
    + intros a. rewrite !in_map_iff. split.
      * intros (w & <- & Hw). apply Hiff in Hw. destruct Hw as (t & Ht & Ha & ->). cbn. destruct (Hin t Ht Ha) as [K _]. exists (Z.to_nat (addr t)). rewrite in_seq. lia.
      * intros (p & <- & Hp). apply in_seq in Hp. destruct (Hcov p) as (t & Ht & Ha & E); [lia|]. exists (addr t, val t). split; [now rewrite <- E|]. apply Hiff. eauto.
  - intros w Hw. apply Hiff in Hw. destruct Hw as (t & Ht & Ha & ->). cbn. now destruct (Hin t Ht Ha).
Qed.
End Run.

(** The contents of a buffer once written exactly once everywhere. *)
Lemma set_nth_length {V} n (v : V) l : length (set_nth n v l) = length l.
Proof. revert n. induction l as [|a l IH]; intros [|n]; cbn; auto. Qed.
Lemma nth_set_nth {V} n (v : V) l p d : (n < length l)%nat -> nth p (set_nth n v l) d = if Nat.eqb p n then v else nth p l d.
Proof.
  revert n p. induction l as [|a l IH]; intros [|n] [|p] H; cbn in H |- *; try reflexivity; try lia. apply IH. lia.
Qed.
Lemma store_length {V} ws (l : list V) : length (store ws l) = length l.
Proof. unfold store. revert l. induction ws as [|w ws IH]; intros l; cbn; [reflexivity|]. rewrite IH. apply set_nth_length. Qed.
Lemma store_nth {V} (f : nat -> V) ws buf d : (forall w, In w ws -> 0 <= fst w < Z.of_nat (length buf) /\ snd w = f (Z.to_nat (fst w))) ->
  forall p, (p < length buf)%nat -> nth p (store ws buf) d = if existsb (fun w => fst w =? Z.of_nat p) ws then f p else nth p buf d.
Proof.
  unfold store. revert buf. induction ws as [|w ws IH]; intros buf H p Hp; cbn; [reflexivity|].
  destruct (H w (or_introl eq_refl)) as [Hw Ew].
  rewrite IH; [|rewrite set_nth_length; intros u Hu; apply H; now right|now rewrite set_nth_length].
  destruct (existsb _ ws) eqn:E; [now rewrite orb_true_r|]. rewrite orb_false_r, nth_set_nth by lia.
  destruct (fst w =? Z.of_nat p) eqn:Ep.
  - apply Z.eqb_eq in Ep. rewrite (proj2 (Nat.eqb_eq _ _)) by lia. rewrite Ew. f_equal. lia.
  - apply Z.eqb_neq in Ep. rewrite (proj2 (Nat.eqb_neq _ _)) by lia. reflexivity.
Qed.
Lemma store_all {V} (f : nat -> V) ws ws' buf n : Permutation (map fst ws) (map Z.of_nat (seq 0 n)) -> (forall w, In w ws -> snd w = f (Z.to_nat (fst w))) ->
  Permutation ws ws' -> length buf = n -> store ws' buf = map f (seq 0 n).
Proof.
  intros Hp Hf Hw Hl. assert (Hp' : Permutation (map fst ws') (map Z.of_nat (seq 0 n))) by (rewrite <- Hp; symmetry; now apply Permutation_map).
  apply nth_ext with (d := f 0%nat) (d' := f 0%nat); [now rewrite store_length, map_length, seq_length|]. rewrite store_length, Hl. intros p Hpn.
  rewrite (store_nth f); [| |lia].
  - rewrite (proj2 (existsb_exists _ _)).
    + rewrite map_nth with (f := f), seq_nth by lia. reflexivity.
    + assert (K : In (Z.of_nat p) (map fst ws')) by (rewrite Hp'; apply in_map, in_seq; lia).
      apply in_map_iff in K. destruct K as (w & E & Hw'). exists w. split; [exact Hw'|]. now apply Z.eqb_eq.
  - intros w Hw'. split.
    + assert (K : In (fst w) (map Z.of_nat (seq 0 n))) by (rewrite <- Hp'; now apply in_map). apply in_map_iff in K. destruct K as (q & <- & Hq). apply in_seq in Hq. lia.
    + apply Hf. rewrite Hw. exact Hw'.
Qed.

(** Thread coordinates. *)
Lemma blocks_cover n m : 1 <= m -> 0 <= n -> n <= get_blocks n m * m < n + m.
Proof. intros Hm Hn. unfold get_blocks. nia. Qed.
Lemma blocks_pos n m : 1 <= m -> 1 <= n -> 1 <= get_blocks n m.
Proof. intros Hm Hn. unfold get_blocks. nia. Qed.

Lemma divide_blocks n m q : 1 <= m -> 0 <= q < get_blocks n m * m -> 0 <= q / m < get_blocks n m /\ 0 <= q mod m < m.
Proof. intros Hm Hq. nia. Qed.

(** Loops that accumulate a sum. *)
Lemma c_for_sum k i0 (step : Z -> C -> option C) (g : Z -> C) acc :
  (forall i a, i0 <= i < i0 + Z.of_nat k -> step i a = Some (Cplus a (g i))) ->
  c_for k i0 step acc = Some (Cplus acc (csum k (fun r => g (i0 + Z.of_nat r)))).
Proof.
  revert i0 acc. induction k as [|k IH]; intros i0 acc H.
  - cbn. now rewrite Cplus_0_r.
  - cbn [c_for]. rewrite H by lia. cbn [obind]. rewrite IH by (intros i a Hi; apply H; lia). f_equal. rewrite csum_first, <- Cplus_assoc. f_equal. f_equal.
    + f_equal. lia.
    + apply csum_ext. intros i _. f_equal. lia.
Qed.
Lemma load_ok {V} (buf : list V) p d : 0 <= p < Z.of_nat (length buf) -> load buf p = Some (nth (Z.to_nat p) buf d).
Proof. intros H. unfold load. rewrite (proj2 (Z.ltb_ge _ _)) by lia. apply nth_error_nth'. lia. Qed.

(** Pairs. *)
Lemma flat_of_pairs n l : length l = (n * 2)%nat -> flat 2 (of_pairs l) = l /\ length (of_pairs l) = n.
Proof.
  revert l. induction n as [|n IH]; intros l Hl.
  - destruct l; [now split|discriminate].
  - destruct l as [|a [|b l]]; try discriminate. cbn in Hl. destruct (IH l) as [E1 E2]; [lia|]. cbn. unfold flat in E1. now rewrite E1, E2.
Qed.
Lemma seq_offset a n : seq a n = map (fun i => (a + i)%nat) (seq 0 n).
Proof. revert a. induction n as [|n IH]; intros a; [reflexivity|]. cbn. rewrite (IH (S a)), (IH 1%nat), map_map. f_equal; [lia|]. apply map_ext. intros. lia. Qed.
Lemma concat_rows {A B} (g : list A -> nat -> B) m rows : (0 < m)%nat ->
  concat (map (fun row => map (g row) (seq 0 m)) rows) = map (fun p => g (nth (p / m) rows []) (p mod m)%nat) (seq 0 (length rows * m)).
Proof.
  intros Hm. induction rows as [|row rows IH]; [reflexivity|]. cbn [map concat length]. rewrite IH. replace (S (length rows) * m)%nat with (m + length rows * m)%nat by lia.
  rewrite seq_app, map_app. f_equal.
  - apply map_ext_in. intros p Hp. apply in_seq in Hp. now rewrite Nat.div_small, Nat.mod_small by lia.
  - rewrite (seq_offset (0 + m)), map_map. apply map_ext. intros p. replace (0 + m + p)%nat with (p + 1 * m)%nat by lia.
    rewrite Nat.div_add, Nat.mod_add by lia. replace (p / m + 1)%nat with (S (p / m)) by lia. reflexivity.
Qed.
Lemma rows_length {A} B n (l : list A) : length (chunks B n l) = B.
Proof. revert l. induction B as [|B IH]; intros l; cbn; [reflexivity|]. now rewrite IH. Qed.

(** ** The modulus kernel *)
Lemma modulus_launch (x : list C) n : length x = n -> (0 < n)%nat -> Z.of_nat n <= 2 ^ 30 ->
  exists ws, launch (get_blocks (Z.of_nat n) 1024, 1, 1) (1024, 1, 1) (abs_complex_value (1024, 1, 1) x (Z.of_nat n)) = Ok (Some ws) /\
    Permutation (map fst ws) (map Z.of_nat (seq 0 n)) /\
    forall w, In w ws -> snd w = let z := nth (Z.to_nat (fst w)) x (RtoC 0) in modulus_forward (fst z) (snd z).
Proof.
  intros Hl Hn Hm. pose proof (blocks_cover (Z.of_nat n) 1024 ltac:(lia) ltac:(lia)) as Hc. pose proof (blocks_pos (Z.of_nat n) 1024 ltac:(lia) ltac:(lia)) as Hp.
  assert (Hpow : 2 ^ 31 = 2147483648 /\ 2 ^ 30 = 1073741824) by (split; reflexivity). destruct Hpow as [P1 P0]. rewrite P0 in Hm.
  unfold launch. rewrite grid_accepted; [|unfold dx; cbn [fst snd]; rewrite P1; lia|cbn; lia|cbn; lia].
  set (id := fun t : dim3 * dim3 => dx (fst t) * 1024 + dx (snd t)).
  assert (Hid : forall t, In t (threads (get_blocks (Z.of_nat n) 1024, 1, 1) (1024, 1, 1)) -> 0 <= id t < get_blocks (Z.of_nat n) 1024 * 1024 /\ t = ((id t / 1024, 0, 0), (id t mod 1024, 0, 0))).
  { intros [[[bx by_] bz] [[tx ty] tz]] Ht. apply In_threads in Ht. destruct Ht as [H1 H2]. apply In_indices in H1, H2. unfold id, dx, dy, dz in *. cbn [fst snd] in *.
    split; [nia|]. assert (by_ = 0 /\ bz = 0 /\ ty = 0 /\ tz = 0) as (-> & -> & -> & ->) by lia.
    assert ((bx * 1024 + tx) / 1024 = bx /\ (bx * 1024 + tx) mod 1024 = tx) as [-> ->] by lia. reflexivity. }
  destruct (exactly_once (abs_complex_value (1024, 1, 1) x (Z.of_nat n)) (threads (get_blocks (Z.of_nat n) 1024, 1, 1) (1024, 1, 1))
    (fun t => id t <? Z.of_nat n) id (fun t => let z := nth (Z.to_nat (id t)) x (RtoC 0) in modulus_forward (fst z) (snd z)) n
    (fun p => let z := nth p x (RtoC 0) in modulus_forward (fst z) (snd z))) as (ws & E & H1 & H2).
  - apply NoDup_threads.
  - intros t Ht. destruct (Hid t Ht) as [Hr _]. unfold abs_complex_value, thread_x. cbn [dx fst snd]. fold (id t).
    change (dx (fst t) * dx (1024, 1, 1) + dx (snd t)) with (id t).
    rewrite int32_pos by (rewrite P1; lia). cbn [obind]. destruct (id t <? Z.of_nat n) eqn:Ei.
    + apply Z.ltb_lt in Ei. replace (id t >=? Z.of_nat n) with false by (symmetry; rewrite Z.geb_leb; apply Z.leb_gt; lia).
      rewrite int32_pos by (rewrite P1; lia). cbn [obind]. rewrite (load_ok x (id t) (RtoC 0)) by lia. cbn [obind]. now rewrite (proj2 (Z.ltb_ge _ _)) by lia.
    + apply Z.ltb_ge in Ei. now replace (id t >=? Z.of_nat n) with true by (symmetry; rewrite Z.geb_leb; apply Z.leb_le; lia).
  - intros t u Ht Hu _ _ E. rewrite (proj2 (Hid t Ht)), (proj2 (Hid u Hu)). now rewrite E.
  - intros t Ht Ha. apply Z.ltb_lt in Ha. destruct (Hid t Ht) as [Hr _]. split; [lia|]. reflexivity.
  - intros p Hpn. exists ((Z.of_nat p / 1024, 0, 0), (Z.of_nat p mod 1024, 0, 0)). split; [|split].
    + apply In_threads. split; apply In_indices; unfold dx, dy, dz; cbn [fst snd]; lia.
    + apply Z.ltb_lt. unfold id, dx. cbn [fst snd]. lia.
    + unfold id, dx. cbn [fst snd]. lia.
  - exists ws. rewrite E. auto.
Qed.

(** ** The 1-D periodization kernel, T = k * m *)
Definition mean1 (T k m : nat) (x : list C) (p : nat) : C :=
  (csum k (fun r => nth (p / m * T + (r * m + p mod m)) x (RtoC 0)) / RtoC (INR k))%C.
Lemma mean_pair z k : (0 < k)%nat -> (fst z / IZR (Z.of_nat k), snd z / IZR (Z.of_nat k))%R = (z / RtoC (INR k))%C.
Proof.
  intros Hk. rewrite <- INR_IZR_INZ. change (z / RtoC (INR k))%C with (o_divn complex_ops z k). rewrite <- (fst_divn z k Hk), <- (snd_divn z k Hk). now destruct (o_divn complex_ops z k).
Qed.
Lemma quot_mul a b : 0 <= a -> 0 < b -> Z.quot (a * b) b = a.
Proof. intros. rewrite Z.quot_mul; lia. Qed.
Lemma periodize1_body B k m x bl t : dx bl = 1024 -> dy bl = 1 -> (0 < k)%nat -> (0 < m)%nat ->
  (B * (k * m) <= length x)%nat -> Z.of_nat (length x) < 2 ^ 31 -> (Z.of_nat k - 1) * Z.of_nat (k * m) < 2 ^ 31 ->
  let tx := dx (fst t) * 1024 + dx (snd t) in let ty := dy (fst t) * 1 + dy (snd t) in
  0 <= tx < 2 ^ 31 -> 0 <= ty < 2 ^ 31 ->
  periodize1 bl (Z.of_nat B) (Z.of_nat (k * m)) (Z.of_nat k) x t =
  Some (if (tx <? Z.of_nat m) && (ty <? Z.of_nat B)
        then Some (ty * Z.of_nat m + tx, mean1 (k * m) k m x (Z.to_nat (ty * Z.of_nat m + tx))) else None).
Proof.
  intros Bx By Hk Hm Hl Hx Hkm tx ty Htx Hty. unfold periodize1, thread_x, thread_y. rewrite Bx, By. fold tx. fold ty.
  rewrite !int32_pos by assumption. cbn [obind].
  assert (Eq : Z.quot (Z.of_nat (k * m)) (Z.of_nat k) = Z.of_nat m) by (rewrite Nat2Z.inj_mul, Z.mul_comm; apply quot_mul; lia).
  rewrite Eq. rewrite Z.geb_leb, (Z.geb_leb ty), (Z.leb_antisym tx), (Z.leb_antisym ty), <- negb_andb.
  destruct ((tx <? Z.of_nat m) && (ty <? Z.of_nat B)) eqn:Ea; [|reflexivity]. cbn [negb].
  apply andb_true_iff in Ea. rewrite !Z.ltb_lt in Ea. destruct Ea as [Ax Ay].
  assert (Hlx : Z.of_nat B * Z.of_nat (k * m) <= Z.of_nat (length x)) by lia.
  assert (HkmZ : Z.of_nat (k * m) = Z.of_nat k * Z.of_nat m) by lia.
  assert (A1 : 0 <= ty * Z.of_nat (k * m)) by nia.
  assert (A2 : ty * Z.of_nat (k * m) + Z.of_nat (k * m) <= Z.of_nat (length x)) by nia.
  assert (A3 : Z.of_nat m <= Z.of_nat (k * m)) by nia.
  rewrite int32_pos by lia. cbn [obind]. rewrite int32_pos by lia. cbn [obind].
  rewrite (c_for_sum _ _ _ (fun i => nth (Z.to_nat (ty * Z.of_nat (k * m) + tx + i * Z.of_nat m)) x (RtoC 0))).
  - cbn [obind]. replace (Z.quot (ty * Z.of_nat (k * m)) (Z.of_nat k)) with (ty * Z.of_nat m)
      by (rewrite HkmZ; replace (ty * (Z.of_nat k * Z.of_nat m)) with (ty * Z.of_nat m * Z.of_nat k) by ring; rewrite quot_mul; nia).
    assert (A4 : 0 <= ty * Z.of_nat m + tx < 2 ^ 31) by nia. rewrite int32_pos by exact A4. cbn [obind]. rewrite (proj2 (Z.ltb_ge _ _)) by lia.
    rewrite mean_pair by exact Hk. do 3 f_equal. unfold mean1. f_equal. rewrite Nat2Z.id, Cplus_0_l. apply csum_ext. intros r Hr. f_equal.
    set (p := Z.to_nat (ty * Z.of_nat m + tx)).
    assert (Ep : (p = Z.to_nat ty * m + Z.to_nat tx)%nat) by (unfold p; nia).
    assert (Ed : (p / m = Z.to_nat ty)%nat) by (rewrite Ep, Nat.div_add_l, Nat.div_small by lia; lia).
    assert (Em : (p mod m = Z.to_nat tx)%nat) by (rewrite Ep, Nat.add_comm, Nat.mod_add, Nat.mod_small by lia; lia).
    rewrite Ed, Em. nia.
  - intros i a Hi. rewrite Nat2Z.id in Hi.
    assert (0 <= i * Z.of_nat (k * m) <= (Z.of_nat k - 1) * Z.of_nat (k * m)) by nia.
    rewrite int32_pos by lia. cbn [obind].
    replace (Z.quot (i * Z.of_nat (k * m)) (Z.of_nat k)) with (i * Z.of_nat m)
      by (rewrite HkmZ; replace (i * (Z.of_nat k * Z.of_nat m)) with (i * Z.of_nat m * Z.of_nat k) by ring; rewrite quot_mul; nia).
    rewrite (load_ok x _ (RtoC 0)); [reflexivity|]. assert (i * Z.of_nat m + Z.of_nat m <= Z.of_nat (k * m)) by nia. nia.
Qed.

Lemma euclid_inj m a b a' b' : 0 <= b < m -> 0 <= b' < m -> a * m + b = a' * m + b' -> a = a' /\ b = b'.
Proof. intros H H' E. apply (Z.div_mod_unique m); [now left|now left|]. rewrite !(Z.mul_comm m). exact E. Qed.
Lemma periodize1_launch B k m x : (0 < k)%nat -> (0 < m)%nat -> (0 < B)%nat -> length x = (B * (k * m))%nat ->
  Z.of_nat (length x) < 2 ^ 31 -> (Z.of_nat k - 1) * Z.of_nat (k * m) < 2 ^ 31 -> Z.of_nat B <= 65535 ->
  exists ws, launch (get_blocks (Z.of_nat m) 1024, get_blocks (Z.of_nat B) 1, 1) (1024, 1, 1)
               (periodize1 (1024, 1, 1) (Z.of_nat B) (Z.of_nat (k * m)) (Z.of_nat k) x) = Ok (Some ws) /\
    Permutation (map fst ws) (map Z.of_nat (seq 0 (B * m))) /\ forall w, In w ws -> snd w = mean1 (k * m) k m x (Z.to_nat (fst w)).
Proof.
  intros Hk Hm HB Hl Hx Hkm HB'. pose proof (blocks_cover (Z.of_nat m) 1024 ltac:(lia) ltac:(lia)) as Hc. pose proof (blocks_pos (Z.of_nat m) 1024 ltac:(lia) ltac:(lia)) as Hp.
  assert (EB : get_blocks (Z.of_nat B) 1 = Z.of_nat B) by (unfold get_blocks; rewrite Z.div_1_r; lia). rewrite EB.
  assert (P1 : 2 ^ 31 = 2147483648) by reflexivity.
  assert (Hmx : Z.of_nat m <= Z.of_nat (length x)) by (rewrite Hl; nia).
  set (g := get_blocks (Z.of_nat m) 1024) in *.
  assert (Hg : g * 1024 <= 2 ^ 31). { rewrite P1 in *. lia. }
  unfold launch. rewrite grid_accepted; [|unfold dx; cbn [fst snd]; lia|unfold dy; cbn [fst snd]; lia|cbn; lia].
  set (ix := fun t : dim3 * dim3 => dx (fst t) * 1024 + dx (snd t)). set (iy := fun t : dim3 * dim3 => dy (fst t) * 1 + dy (snd t)).
  assert (Hid : forall t, In t (threads (g, Z.of_nat B, 1) (1024, 1, 1)) -> 0 <= ix t < g * 1024 /\ 0 <= iy t < Z.of_nat B /\ t = ((ix t / 1024, iy t, 0), (ix t mod 1024, 0, 0))).
  { intros [[[bx by_] bz] [[tx ty] tz]] Ht. apply In_threads in Ht. destruct Ht as [H1 H2]. apply In_indices in H1, H2. unfold ix, iy, dx, dy, dz in *. cbn [fst snd] in *.
    split; [nia|]. split; [lia|]. assert (bz = 0 /\ ty = 0 /\ tz = 0) as (-> & -> & ->) by lia. replace (by_ * 1 + 0) with by_ by lia.
    assert ((bx * 1024 + tx) / 1024 = bx /\ (bx * 1024 + tx) mod 1024 = tx) as [-> ->] by lia. reflexivity. }
  destruct (exactly_once (periodize1 (1024, 1, 1) (Z.of_nat B) (Z.of_nat (k * m)) (Z.of_nat k) x) (threads (g, Z.of_nat B, 1) (1024, 1, 1))
    (fun t => (ix t <? Z.of_nat m) && (iy t <? Z.of_nat B)) (fun t => iy t * Z.of_nat m + ix t)
    (fun t => mean1 (k * m) k m x (Z.to_nat (iy t * Z.of_nat m + ix t))) (B * m)%nat (mean1 (k * m) k m x)) as (ws & E & H1 & H2).
  - apply NoDup_threads.
  - intros t Ht. destruct (Hid t Ht) as (Hr & Hs & _). apply periodize1_body; try assumption; try reflexivity; try (fold (ix t)); try (fold (iy t)); lia.
  - intros t u Ht Hu Ha Hb E. apply andb_true_iff in Ha, Hb. rewrite !Z.ltb_lt in Ha, Hb. destruct (Hid t Ht) as (R1 & S1 & ->), (Hid u Hu) as (R2 & S2 & ->).
    destruct (euclid_inj (Z.of_nat m) (iy t) (ix t) (iy u) (ix u)) as [-> ->]; [lia|lia|exact E|]. reflexivity.
  - intros t Ht Ha. apply andb_true_iff in Ha. rewrite !Z.ltb_lt in Ha. destruct (Hid t Ht) as (R1 & S1 & _). split; [nia|reflexivity].
  - intros p Hpn. set (q := Z.of_nat p).
    assert (Hq : 0 <= q mod Z.of_nat m < Z.of_nat m) by (apply Z.mod_pos_bound; lia).
    assert (Hq' : 0 <= q / Z.of_nat m < Z.of_nat B) by (split; [apply Z.div_pos; lia|apply Z.div_lt_upper_bound; lia]).
    pose proof (Z.div_mod q (Z.of_nat m) ltac:(lia)) as Eq.
    set (a := q mod Z.of_nat m) in *. set (b := q / Z.of_nat m) in *. clearbody a b.
    exists ((a / 1024, b, 0), (a mod 1024, 0, 0)).
    assert (Ex : ix (a / 1024, b, 0, (a mod 1024, 0, 0)) = a) by (unfold ix, dx; cbn [fst snd]; lia).
    assert (Ey : iy (a / 1024, b, 0, (a mod 1024, 0, 0)) = b) by (unfold iy, dy; cbn [fst snd]; lia).
    rewrite Ex, Ey. split; [|split].
    + apply In_threads. split; apply In_indices; unfold dx, dy, dz; cbn [fst snd]; lia.
    + apply andb_true_iff. rewrite !Z.ltb_lt. lia.
    + lia.
  - exists ws. rewrite E. auto.
Qed.

(** PyTorch's periodization, row by row. *)
Lemma periodize_rows B k m x : (0 < k)%nat -> (0 < m)%nat -> length x = (B * (k * m))%nat ->
  concat (map (periodize_row real_ops k (m * 2)) (chunks B (k * m * 2) (flat 2 x))) = flat 2 (map (mean1 (k * m) k m x) (seq 0 (B * m))).
Proof.
  intros Hk Hm Hl. rewrite flat_chunks, map_map by lia.
  rewrite (map_ext _ (fun r => flat 2 (periodize_row complex_ops k m r))) by (intros; now apply periodize_flat).
  transitivity (flat 2 (concat (map (periodize_row complex_ops k m) (chunks B (k * m) x)))).
  { generalize (chunks B (k * m) x). intros l. induction l as [|r l IH]; [reflexivity|]. cbn [map concat]. unfold flat in *. now rewrite flat_map_app, IH. }
  f_equal. unfold periodize_row. rewrite concat_rows by exact Hm. rewrite rows_length. apply map_ext_in. intros p Hp. apply in_seq in Hp.
  unfold mean1. cbn [o_divn complex_ops]. f_equal. rewrite osum_csum. apply csum_ext. intros r Hr.
  assert (Hpm : (p / m < B)%nat) by (apply Nat.div_lt_upper_bound; lia).
  assert (Hmm : (p mod m < m)%nat) by (apply Nat.mod_upper_bound; lia).
  assert (Hrm : (r * m + p mod m < k * m)%nat) by nia.
  change (at_ (nth (p / m) (chunks B (k * m) x) []) (r * m + p mod m) = at_ x (p / m * (k * m) + (r * m + p mod m))).
  rewrite at_row by assumption. reflexivity.
Qed.
