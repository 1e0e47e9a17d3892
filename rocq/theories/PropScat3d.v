(** Properties of the 3-D transform: C49, C50, C60, C73-C80. *)
From Coq Require Import String Reals ZArith List Bool Arith Lia Lra Permutation Sorted.
From Coquelicot Require Import Complex.
From Verif Require Import Base BaseProofs NdArray NdProofs StackProofs Backend Backend2d Images ComplexOps Dft Conv1d Dft2 Mats
  Backend3d Core3d FilterBank3d Frontend3d Dft3 Rows3d Eval3d Path3d.
Import ListNotations.
Local Open Scope Z_scope.
Local Ltac Zify.zify_post_hook ::= Z.div_mod_to_equations.

(** ** The setting *)
(** A frontend that runs the transform: NumPy with any [method], TensorFlow with the documented one. *)
Definition runs3 (f : scat3 -> nd C -> res (nd C)) (p : params3) : Prop :=
  f = numpy_scattering3 \/ f = tf_scattering3 /\ h_method p = "integral"%string.
(** A real array of volumes of the declared size, with at least one volume. *)
Definition input3 (p : params3) (batch : list nat) (x : nd C) : Prop :=
  nd_wf x /\ nd_dtype x = Real /\ nd_shape x = batch ++ [Z.to_nat (h_M p); Z.to_nat (h_N p); Z.to_nat (h_O p)] /\ (0 < prod batch)%nat.
(** Filters as nested lists: degrees 0..L, scales 0..J, 2l+1 components each, of the size of the volumes. *)
Definition bank_of (p : params3) (F : list (list (list (nd C)))) : Prop :=
  bank3_ok (Z.to_nat (h_M p)) (Z.to_nat (h_N p)) (Z.to_nat (h_O p)) (h_L p) (h_J p) F.
Notation Mx p := (Z.to_nat (h_M p)).
Notation Nx p := (Z.to_nat (h_N p)).
Notation Dx p := (Z.to_nat (h_O p)).
Definition n_paths (J max_order : Z) : nat := Z.to_nat (if max_order =? 2 then J + 1 + J * (J + 1) / 2 else J + 1).
(** Entry (b, i, l, q) of the flattened output, b being the number of the volume in the batch. *)
Definition coef3 (p : params3) (y : nd C) (b i l q : nat) : C :=
  nth (((b * n_paths (h_J p) (h_max_order p) + i) * Z.to_nat (h_L p + 1) + l) * List.length (h_integral_powers p) + q) (nd_data y) (RtoC 0).

Lemma runs3_of f p F g batch x : runs3 f p -> valid3 p -> bank_of p F -> input3 p batch x ->
  f (mk_scat3 p F g) x = Ok (out3 p F (Mx p) (Nx p) (Dx p) batch x).
Proof.
  intros Hf Hv HF (H1 & H2 & H3 & H4). pose proof (valid3_sizes p Hv) as Hs. pose proof Hs as (_ & _ & _ & HM & HN & HD).
  destruct Hv as (HJ & HL & _ & _ & _ & _ & Hq).
  destruct Hf as [-> | [-> Hm]].
  - unfold numpy_scattering3. cbn [t_args]. rewrite H3, (check3_ok p _ _ _ batch Hs). cbn [bind]. rewrite numpy_backend3_eq. apply run3_of; try assumption.
    intros B vols w. now apply np3_cdgmm_of.
  - unfold tf_scattering3. cbn [t_args].
    rewrite H3, (check3_ok p _ _ _ batch Hs), Hm. cbn [bind String.eqb Ascii.eqb Bool.eqb negb raise_if]. rewrite tf_backend3_eq. apply run3_of; try assumption.
    intros B vols w. now apply tf3_cdgmm_of.
Qed.

(** ** The paths *)
Lemma zrange_cons a b : a < b -> zrange a b = a :: zrange (a + 1) b.
Proof.
  intros H. unfold zrange. replace (Z.to_nat (b - a)) with (S (Z.to_nat (b - (a + 1)))) by lia. cbn [seq map]. f_equal; [lia|].
  rewrite <- seq_shift, map_map. apply map_ext. intros. lia.
Qed.
Definition pairs_from (a J : Z) : list (list Z) := concat (map (fun j1 => map (fun j2 => [j1; j2]) (zrange (j1 + 1) (J + 1))) (zrange a (J + 1))).
Lemma pairs_from_nth (k : nat) J : forall a t, 0 <= a -> a + Z.of_nat k <= J -> (t < Z.to_nat (J - (a + Z.of_nat k)))%nat ->
  nth (Z.to_nat ((Z.of_nat k * (2 * (J - a) + 1 - Z.of_nat k)) / 2) + t) (pairs_from a J) [] = [a + Z.of_nat k; a + Z.of_nat k + 1 + Z.of_nat t].
Proof.
  induction k as [|k IH]; intros a t Ha Hk Ht.
  - unfold pairs_from. rewrite zrange_cons by lia. cbn [map concat]. change (Z.of_nat 0) with 0. rewrite Z.mul_0_l. change (Z.to_nat (0 / 2)) with 0%nat. rewrite Nat.add_0_l.
    rewrite app_nth1 by (rewrite map_length, zrange_length; lia). rewrite (nth_map_any _ _ _ _ 0) by (rewrite zrange_length; lia). rewrite nth_zrange by lia. f_equal; [lia|f_equal; lia].
  - unfold pairs_from. rewrite zrange_cons by lia. cbn [map concat]. fold (pairs_from (a + 1) J).
    assert (E : Z.to_nat (Z.of_nat (S k) * (2 * (J - a) + 1 - Z.of_nat (S k)) / 2) = (Z.to_nat (J - a) + Z.to_nat (Z.of_nat k * (2 * (J - (a + 1)) + 1 - Z.of_nat k) / 2))%nat).
    { replace (Z.of_nat (S k) * (2 * (J - a) + 1 - Z.of_nat (S k))) with (Z.of_nat k * (2 * (J - (a + 1)) + 1 - Z.of_nat k) + (J - a) * 2) by lia.
      rewrite Z.div_add by lia. assert (0 <= Z.of_nat k * (2 * (J - (a + 1)) + 1 - Z.of_nat k)) by (apply Z.mul_nonneg_nonneg; lia). 
      assert (0 <= Z.of_nat k * (2 * (J - (a + 1)) + 1 - Z.of_nat k) / 2) by (apply Z.div_pos; lia). lia. }
    rewrite E. rewrite app_nth2 by (rewrite map_length, zrange_length; lia). rewrite map_length, zrange_length.
    replace (Z.to_nat (J - a) + Z.to_nat (Z.of_nat k * (2 * (J - (a + 1)) + 1 - Z.of_nat k) / 2) + t - Z.to_nat (J + 1 - (a + 1)))%nat
      with (Z.to_nat (Z.of_nat k * (2 * (J - (a + 1)) + 1 - Z.of_nat k) / 2) + t)%nat by lia.
    rewrite IH by lia. f_equal; [lia|f_equal; lia].
Qed.
Lemma pairs_from_length (k : nat) J : forall a, 0 <= a -> a + Z.of_nat k = J + 1 -> Z.of_nat (List.length (pairs_from a J)) = Z.of_nat k * (Z.of_nat k - 1) / 2.
Proof.
  induction k as [|k IH]; intros a Ha Hk.
  - unfold pairs_from. replace (zrange a (J + 1)) with (@nil Z); [reflexivity|]. unfold zrange. replace (Z.to_nat _) with 0%nat by lia. reflexivity.
  - unfold pairs_from. rewrite zrange_cons by lia. cbn [map concat]. fold (pairs_from (a + 1) J). rewrite app_length, map_length, zrange_length, Nat2Z.inj_add, IH by lia.
    replace (Z.of_nat (S k) * (Z.of_nat (S k) - 1)) with (Z.of_nat k * (Z.of_nat k - 1) + Z.of_nat k * 2) by lia. rewrite Z.div_add by lia. lia.
Qed.
Lemma paths3_length J mo : 0 <= J -> List.length (paths3 J mo) = n_paths J mo.
Proof.
  intros HJ. unfold paths3, n_paths. rewrite app_length. unfold firsts3. rewrite map_length, zrange_length. destruct (Z.eqb_spec mo 2); cbn [List.length]; [|lia].
  change (pairs3 J) with (pairs_from 0 J). pose proof (pairs_from_length (Z.to_nat (J + 1)) J 0 ltac:(lia) ltac:(lia)) as H. rewrite Z2Nat.id in H by lia.
  replace ((J + 1) * (J + 1 - 1)) with (J * (J + 1)) in H by ring. assert (0 <= J * (J + 1)) by nia. assert (0 <= J * (J + 1) / 2) by (apply Z.div_pos; lia). lia.
Qed.
(** The path of index i: first orders j = 0..J, then the pairs j1 < j2 in lexicographic order. *)
Theorem C49_paths : forall J mo, 0 <= J ->
  List.length (paths3 J mo) = n_paths J mo /\
  (forall j, 0 <= j <= J -> nth (Z.to_nat j) (paths3 J mo) [] = [j]) /\
  (mo = 2 -> forall j1 j2, 0 <= j1 < j2 -> j2 <= J ->
     nth (Z.to_nat (J + 1 + j1 * (2 * J + 1 - j1) / 2 + (j2 - j1 - 1))) (paths3 J mo) [] = [j1; j2]) /\
  (forall q, In q (paths3 J mo) <-> (exists j, q = [j] /\ 0 <= j <= J) \/ (mo = 2 /\ exists j1 j2, q = [j1; j2] /\ 0 <= j1 < j2 /\ j2 <= J)).
Proof.
  intros J mo HJ. split; [now apply paths3_length|]. split; [|split].
  - intros j Hj. unfold paths3, firsts3. rewrite app_nth1 by (rewrite map_length, zrange_length; lia). rewrite (nth_map_any _ _ _ _ 0) by (rewrite zrange_length; lia). rewrite nth_zrange by lia. f_equal. lia.
  - intros -> j1 j2 H1 H2. unfold paths3. cbn [Z.eqb Pos.eqb]. assert (0 <= j1 * (2 * J + 1 - j1)) by (apply Z.mul_nonneg_nonneg; lia). assert (0 <= j1 * (2 * J + 1 - j1) / 2) by (apply Z.div_pos; lia).
    rewrite app_nth2; unfold firsts3; rewrite map_length, zrange_length; [|lia]. change (pairs3 J) with (pairs_from 0 J).
    replace (Z.to_nat (J + 1 + j1 * (2 * J + 1 - j1) / 2 + (j2 - j1 - 1)) - Z.to_nat (J + 1 - 0))%nat
      with (Z.to_nat ((Z.of_nat (Z.to_nat j1) * (2 * (J - 0) + 1 - Z.of_nat (Z.to_nat j1))) / 2) + Z.to_nat (j2 - j1 - 1))%nat by (rewrite Z2Nat.id, Z.sub_0_r by lia; lia).
    rewrite pairs_from_nth by lia. f_equal; [lia|f_equal; lia].
  - intros q. unfold paths3, firsts3, pairs3. rewrite in_app_iff, in_map_iff. split.
    + intros [(j & <- & H)|H]; [left; apply In_zrange in H; exists j; split; [reflexivity|lia]|]. right. destruct (Z.eqb_spec mo 2); [|destruct H]. split; [assumption|].
      apply in_concat in H as (l & Hl & Hq). apply in_map_iff in Hl as (j1 & <- & H1). apply in_map_iff in Hq as (j2 & <- & H2). apply In_zrange in H1, H2. exists j1, j2. split; [reflexivity|lia].
    + intros [(j & -> & H)|(-> & j1 & j2 & -> & H1 & H2)]; [left; exists j; split; [reflexivity|apply In_zrange; lia]|]. right. cbn [Z.eqb Pos.eqb]. apply in_concat.
      exists (map (fun j2 => [j1; j2]) (zrange (j1 + 1) (J + 1))). split; [apply in_map_iff; exists j1; split; [reflexivity|apply In_zrange; lia]|].
      apply in_map_iff. exists j2. split; [reflexivity|apply In_zrange; lia].
Qed.
Print Assumptions C49_paths.
Example C49_paths_instance : paths3 2 2 = [[0]; [1]; [2]; [0; 1]; [0; 2]; [1; 2]] /\ n_paths 2 2 = 6%nat.
Proof. split; reflexivity. Qed.

(** ** Reading an entry of the output *)
Lemma nth_concat_map {A B} (f : A -> list B) n (l : list A) d z i j : (forall a, In a l -> List.length (f a) = n) -> (i < List.length l)%nat -> (j < n)%nat ->
  nth (i * n + j) (concat (map f l)) z = nth j (f (nth i l d)) z.
Proof.
  intros Hf Hi Hj. rewrite nth_concat_const; [|apply Forall_map, Forall_forall; exact Hf|exact Hj].
  f_equal. now apply nth_map_any.
Qed.
Section Read.
Variables (p : params3) (F : list (list (list (nd C)))) (batch : list nat) (x : nd C).
Hypothesis (Hv : valid3 p).
Notation J := (h_J p). Notation L := (h_L p). Notation qs := (h_integral_powers p). Notation mo := (h_max_order p).
Notation out := (out3 p F (Mx p) (Nx p) (Dx p) batch x).
Notation U l b q := (U_path (Mx p) (Nx p) (Dx p) (h_rotation_covariant p) F l (volume (Mx p) (Nx p) (Dx p) b x) q).
Lemma zr_len : List.length (zrange 0 (L + 1)) = Z.to_nat (L + 1).
Proof. rewrite zrange_length. f_equal. lia. Qed.
Lemma inner_len q v : List.length (concat (map (fun l => moments qs (U_path (Mx p) (Nx p) (Dx p) (h_rotation_covariant p) F l v q)) (zrange 0 (L + 1)))) = (Z.to_nat (L + 1) * List.length qs)%nat.
Proof. rewrite (concat_len (List.length qs)), map_length, zr_len; [reflexivity|]. apply Forall_map, Forall_forall. intros; apply moments_length. Qed.
Lemma coefs_len v : List.length (coefs3 (Mx p) (Nx p) (Dx p) (h_rotation_covariant p) F L J qs mo v) = (n_paths J mo * (Z.to_nat (L + 1) * List.length qs))%nat.
Proof.
  unfold coefs3. rewrite (concat_len (Z.to_nat (L + 1) * List.length qs)), map_length; [|apply Forall_map, Forall_forall; intros; apply inner_len].
  rewrite paths3_length; [reflexivity|]. apply Hv.
Qed.
Lemma out_coef b i l q : (b < prod batch)%nat -> (i < n_paths J mo)%nat -> (l < Z.to_nat (L + 1))%nat -> (q < List.length qs)%nat ->
  coef3 p out b i l q = integral (nth q qs 0%R) (U (Z.of_nat l) b (nth i (paths3 J mo) [])).
Proof.
  intros Hb Hi Hl Hq. unfold coef3, out3. cbn [nd_data]. set (P := n_paths J mo) in *. set (L1 := Z.to_nat (L + 1)) in *. set (nq := List.length qs) in *.
  assert (H1 : (l * nq + q < L1 * nq)%nat) by nia. assert (H2 : (i * (L1 * nq) + (l * nq + q) < P * (L1 * nq))%nat) by nia.
  replace (((b * P + i) * L1 + l) * nq + q)%nat with (b * (P * (L1 * nq)) + (i * (L1 * nq) + (l * nq + q)))%nat by ring.
  rewrite (nth_concat_map _ (P * (L1 * nq)) _ 0%nat); [|intros; apply coefs_len|now rewrite seq_length|exact H2]. rewrite seq_nth by exact Hb. cbn [plus]. unfold coefs3.
  rewrite (nth_concat_map _ (L1 * nq) _ []); [|intros; apply inner_len|rewrite paths3_length by (apply Hv); exact Hi|exact H1].
  rewrite (nth_concat_map _ nq _ 0); [|intros; apply moments_length|rewrite zr_len; exact Hl|exact Hq].
  unfold moments. rewrite (nth_map_any _ _ _ _ 0%R) by exact Hq. rewrite nth_zrange by (fold L1; lia). do 2 f_equal.
Qed.
Lemma out_wf : nd_wf out.
Proof.
  unfold nd_wf, out3. cbn [nd_data nd_shape]. rewrite (concat_len (n_paths J mo * (Z.to_nat (L + 1) * List.length qs))), map_length, seq_length.
  - rewrite prod_app, paths3_length by (apply Hv). cbn [prod fold_right]. ring.
  - apply Forall_map, Forall_forall. intros; apply coefs_len.
Qed.
End Read.

(** ** C49 *)
Theorem C49_layout : forall f p F g batch x, runs3 f p -> valid3 p -> bank_of p F -> input3 p batch x -> h_max_order p = 1 \/ h_max_order p = 2 ->
  exists y, f (mk_scat3 p F g) x = Ok y /\ nd_wf y /\ nd_dtype y = Real /\
    nd_shape y = batch ++ [n_paths (h_J p) (h_max_order p); Z.to_nat (h_L p + 1); List.length (h_integral_powers p)] /\
    forall b i l q, (b < prod batch)%nat -> (i < n_paths (h_J p) (h_max_order p))%nat -> (l < Z.to_nat (h_L p + 1))%nat -> (q < List.length (h_integral_powers p))%nat ->
      coef3 p y b i l q =
      integral (nth q (h_integral_powers p) 0%R)
        (U_path (Mx p) (Nx p) (Dx p) (h_rotation_covariant p) F (Z.of_nat l) (volume (Mx p) (Nx p) (Dx p) b x) (nth i (paths3 (h_J p) (h_max_order p)) [])).
Proof.
  intros f p F g batch x Hf Hv HF Hx _. exists (out3 p F (Mx p) (Nx p) (Dx p) batch x). split; [now apply runs3_of|]. split; [now apply out_wf|]. split; [reflexivity|]. split.
  - unfold out3. cbn [nd_shape]. rewrite paths3_length by (apply Hv). reflexivity.
  - intros b i l q Hb Hi Hl Hq. now apply out_coef.
Qed.
Print Assumptions C49_layout.

(** A concrete object and input. *)
Definition p_ex : params3 := mk_params3 2 4 2 3 1 1 2 true "integral" [1%R; 2%R].
Definition sph0 : Z -> Z -> R -> R -> C := fun _ _ _ _ => RtoC 1.
Definition x_ex : nd C := mk_nd Real [2; 1; 4; 2; 3]%nat (map (fun n => RtoC (INR n)) (seq 0 48)).
Definition F_ex := solid_harmonic_filter_bank sph0 4 2 3 2 1 1.
Lemma p_ex_valid : valid3 p_ex.
Proof. unfold valid3, p_ex. cbn. repeat split; try lia; [lra|discriminate]. Qed.
Lemma x_ex_ok : input3 p_ex [2; 1]%nat x_ex.
Proof. repeat split. cbn. lia. Qed.
Lemma F_ex_ok : bank_of p_ex F_ex.
Proof. apply bank_ready. Qed.
Example C49_layout_instance : exists y, numpy_scattering3 (mk_scat3 p_ex F_ex []) x_ex = Ok y /\ nd_shape y = [2; 1; 6; 2; 2]%nat.
Proof.
  destruct (C49_layout numpy_scattering3 p_ex F_ex [] [2; 1]%nat x_ex (or_introl eq_refl) p_ex_valid F_ex_ok x_ex_ok (or_intror eq_refl)) as (y & H1 & _ & _ & H2 & _).
  exists y. split; [exact H1|exact H2].
Qed.

(** ** C50: the fold of modulus_rotation *)
Fixpoint rot_fold (mr : nd C -> option (nd C) -> res (nd C)) (xs : list (nd C)) (m : option (nd C)) : res (option (nd C)) :=
  match xs with [] => Ok m | x :: r => (y <- mr x m ;; rot_fold mr r (Some y))%res end.
Definition sumsq (zs : list C) : R := fold_right Rplus 0%R (map (fun z => Rsqr (Re z) + Rsqr (Im z))%R zs).
Lemma Cmod_sq z : (pow (Cmod z) 2 = Rsqr (Re z) + Rsqr (Im z))%R.
Proof. unfold Cmod, Rsqr, Re, Im. rewrite pow2_sqrt; [cbn; ring|]. apply Rplus_le_le_0_compat; apply pow2_ge_0. Qed.
Lemma sumsq_nonneg zs : (0 <= sumsq zs)%R.
Proof. unfold sumsq. induction zs as [|z r IH]; cbn [map fold_right]; [lra|]. pose proof (Rle_0_sqr (Re z)). pose proof (Rle_0_sqr (Im z)). lra. Qed.
Lemma sumsq_cons z r : sumsq (z :: r) = (Rsqr (Re z) + Rsqr (Im z) + sumsq r)%R.
Proof. reflexivity. Qed.
Lemma sumsq_perm l l' : Permutation l l' -> sumsq l = sumsq l'.
Proof.
  intros H. unfold sumsq. induction H; cbn [map fold_right]; [reflexivity|now rewrite IHPermutation|ring|congruence].
Qed.
Section Fold.
Variables (s : list nat) (n : nat).
Definition col (xs : list (nd C)) (i : nat) : list C := map (fun x => nth i (nd_data x) (RtoC 0)) xs.
Definition same (x : nd C) : Prop := nd_shape x = s /\ List.length (nd_data x) = n.
Lemma combine_seq (l l' : list C) : List.length l = n -> List.length l' = n -> combine l l' = map (fun i => (nth i l (RtoC 0), nth i l' (RtoC 0))) (seq 0 n).
Proof.
  intros H1 H2. apply (nth_ext _ _ (RtoC 0, RtoC 0) (RtoC 0, RtoC 0)); [rewrite combine_length, map_length, seq_length; lia|].
  intros i Hi. rewrite combine_length in Hi. rewrite combine_nth by lia. rewrite (nth_map_any _ _ _ _ 0%nat) by (rewrite seq_length; lia). now rewrite seq_nth by lia.
Qed.
Lemma rot_fold_some xs (acc : nat -> R) : (forall i, (0 <= acc i)%R) -> Forall same xs ->
  rot_fold np3_modulus_rotation xs (Some (mk_nd Real s (map (fun i => RtoC (sqrt (acc i))) (seq 0 n)))) =
  Ok (Some (mk_nd Real s (map (fun i => RtoC (sqrt (acc i + sumsq (col xs i)))) (seq 0 n)))).
Proof.
  revert acc. induction xs as [|x xs IH]; intros acc Ha Hx.
  - cbn [rot_fold col map]. do 3 f_equal. apply map_ext. intros i. unfold sumsq. cbn. now rewrite Rplus_0_r.
  - apply Forall_cons_iff in Hx as [[E1 E2] Hx']. cbn [rot_fold]. unfold np3_modulus_rotation at 1. cbn [nd_shape nd_data]. rewrite E1.
    destruct (list_eq_dec Nat.eq_dec s s) as [_|]; [|congruence]. cbn [bind].
    rewrite combine_seq by (first [rewrite map_length; apply seq_length|exact E2]). rewrite map_map.
    rewrite (map_ext_in _ (fun i => RtoC (sqrt (acc i + (Rsqr (Re (nth i (nd_data x) (RtoC 0))) + Rsqr (Im (nth i (nd_data x) (RtoC 0))))))%R)).
    + rewrite IH.
      * do 3 f_equal. apply map_ext. intros i. cbn [col map]. rewrite sumsq_cons. do 2 f_equal. unfold col. ring.
      * intros i. pose proof (Ha i). pose proof (Rle_0_sqr (Re (nth i (nd_data x) (RtoC 0)))). pose proof (Rle_0_sqr (Im (nth i (nd_data x) (RtoC 0)))). lra.
      * exact Hx'.
    + intros i Hi. apply in_seq in Hi. cbn [fst snd]. rewrite (nth_map_any _ _ _ _ 0%nat) by (rewrite seq_length; lia). rewrite seq_nth by lia. cbn [plus]. rewrite Cmod_sq.
      unfold Re at 1. cbn [fst RtoC]. rewrite pow2_sqrt by apply Ha. reflexivity.
Qed.
Lemma rot_fold_none xs : xs <> [] -> Forall same xs ->
  rot_fold np3_modulus_rotation xs None = Ok (Some (mk_nd Real s (map (fun i => RtoC (sqrt (sumsq (col xs i)))) (seq 0 n)))).
Proof.
  intros Hne Hx. destruct xs as [|x xs]; [congruence|]. apply Forall_cons_iff in Hx as [[E1 E2] Hx']. cbn [rot_fold]. unfold np3_modulus_rotation at 1. cbn [bind]. rewrite E1.
  replace (map _ (nd_data x)) with (map (fun i => RtoC (sqrt (Rsqr (Re (nth i (nd_data x) (RtoC 0))) + Rsqr (Im (nth i (nd_data x) (RtoC 0)))))) (seq 0 n)).
  - rewrite rot_fold_some; [| |exact Hx'].
    + do 3 f_equal.
    + intros i. pose proof (Rle_0_sqr (Re (nth i (nd_data x) (RtoC 0)))). pose proof (Rle_0_sqr (Im (nth i (nd_data x) (RtoC 0)))). lra.
  - rewrite <- E2. rewrite <- (map_nth_seq (fun z => RtoC (sqrt (pow (Cmod z) 2))) (RtoC 0) (nd_data x)). apply map_ext. intros i. now rewrite Cmod_sq.
Qed.
End Fold.
(** NumPy's modulus_rotation (and TensorFlow's, the same formula in the model), folded from None over arrays of one shape. *)
Theorem C50_rotation_fold : forall s xs, xs <> [] -> Forall (fun x => nd_wf x /\ nd_shape x = s) xs ->
  exists y, rot_fold (b3_modulus_rotation numpy_backend3) xs None = Ok (Some y) /\ rot_fold (b3_modulus_rotation tf_backend3) xs None = Ok (Some y) /\
    nd_shape y = s /\ nd_wf y /\ nd_dtype y = Real /\
    (forall i, (i < prod s)%nat -> nth i (nd_data y) (RtoC 0) =
       RtoC (sqrt (fold_right Rplus 0%R (map (fun x => let z := nth i (nd_data x) (RtoC 0) in Rsqr (Re z) + Rsqr (Im z))%R xs)))) /\
    (forall i, (i < prod s)%nat -> (0 <= Re (nth i (nd_data y) (RtoC 0)))%R) /\
    (forall xs', Permutation xs xs' -> rot_fold (b3_modulus_rotation numpy_backend3) xs' None = Ok (Some y)) /\
    (forall x, xs = [x] -> nd_dtype x = Complex -> b3_modulus numpy_backend3 x = Ok y).
Proof.
  intros s xs Hne Hx. assert (Hs : Forall (same s (prod s)) xs).
  { eapply Forall_impl; [|exact Hx]. cbn. intros x [Hw E]. split; [exact E|]. now rewrite Hw, E. }
  exists (mk_nd Real s (map (fun i => RtoC (sqrt (sumsq (col xs i)))) (seq 0 (prod s)))).
  assert (Hn : forall i, (i < prod s)%nat -> nth i (map (fun i => RtoC (sqrt (sumsq (col xs i)))) (seq 0 (prod s))) (RtoC 0) = RtoC (sqrt (sumsq (col xs i)))).
  { intros i Hi. rewrite (nth_map_any _ _ _ _ 0%nat) by (rewrite seq_length; exact Hi). now rewrite seq_nth. }
  split; [now apply rot_fold_none|]. split; [now apply rot_fold_none|]. split; [reflexivity|]. split; [unfold nd_wf; cbn [nd_data nd_shape]; now rewrite map_length, seq_length|].
  split; [reflexivity|]. split; [|split; [|split]].
  - intros i Hi. cbn [nd_data]. rewrite Hn by exact Hi. unfold sumsq, col. now rewrite map_map.
  - intros i Hi. cbn [nd_data]. rewrite Hn by exact Hi. apply sqrt_pos.
  - intros xs' HP. cbn [b3_modulus_rotation numpy_backend3]. rewrite (rot_fold_none s (prod s)).
    + do 3 f_equal. apply map_ext. intros i. do 2 f_equal. apply sumsq_perm. unfold col. apply Permutation_map. now apply Permutation_sym.
    + intros ->. apply Permutation_sym, Permutation_nil in HP. contradiction.
    + apply Forall_forall. intros a Ha. apply (Permutation_in _ (Permutation_sym HP)) in Ha. revert a Ha. now apply Forall_forall.
  - intros x -> Hc. apply Forall_cons_iff in Hs as [[E1 E2] _]. cbn [b3_modulus numpy_backend3]. unfold np_modulus. rewrite E1, Hc. do 2 f_equal. rewrite <- E2.
    rewrite <- (map_nth_seq (o_abs complex_ops) (RtoC 0) (nd_data x)). apply map_ext. intros i. cbn [col map]. unfold sumsq. cbn [map fold_right]. rewrite Rplus_0_r. rewrite <- Cmod_sq.
    rewrite sqrt_pow2 by apply Cmod_ge_0. reflexivity.
Qed.
Print Assumptions C50_rotation_fold.
(** PyTorch's formula on (re, im) pairs gives the same real numbers, at every stage of the fold. *)
Theorem C50_torch : forall (zs : list C), zs <> [] ->
  fold_left (fun m z => Some (torch3_modulus_rotation_at (Re z, Im z) m)) zs None =
  Some (sqrt (fold_right Rplus 0%R (map (fun z => Rsqr (Re z) + Rsqr (Im z))%R zs))).
Proof.
  assert (G : forall zs a, (0 <= a)%R -> fold_left (fun m z => Some (torch3_modulus_rotation_at (Re z, Im z) m)) zs (Some (sqrt a)) = Some (sqrt (a + sumsq zs))).
  { induction zs as [|z zs IH]; intros a Ha; [unfold sumsq; cbn; now rewrite Rplus_0_r|]. cbn [fold_left]. unfold torch3_modulus_rotation_at at 2. cbn [fst snd].
    rewrite pow2_sqrt by exact Ha. rewrite IH.
    - rewrite sumsq_cons. do 2 f_equal. unfold Rsqr. ring.
    - pose proof (pow2_ge_0 (Re z)). pose proof (pow2_ge_0 (Im z)). lra. }
  intros [|z zs] H; [congruence|]. cbn [fold_left]. unfold torch3_modulus_rotation_at at 2. cbn [fst snd]. rewrite G.
  - fold (sumsq (z :: zs)). rewrite sumsq_cons. do 2 f_equal. unfold Rsqr. ring.
  - pose proof (pow2_ge_0 (Re z)). pose proof (pow2_ge_0 (Im z)). lra.
Qed.
Print Assumptions C50_torch.
Example C50_instance : fold_left (fun m z => Some (torch3_modulus_rotation_at (Re z, Im z) m)) [(3, 0)%R; (0, 4)%R] None = Some 5%R.
Proof.
  rewrite C50_torch by discriminate. cbn. f_equal. replace (Rsqr 3 + Rsqr 0 + (Rsqr 0 + Rsqr 4 + 0))%R with (5 * 5)%R by (unfold Rsqr; ring). apply sqrt_square. lra.
Qed.
Example C50_fold_instance : exists y, rot_fold (b3_modulus_rotation numpy_backend3) [mk_nd Complex [2%nat] [(3, 0)%R; Ci]; mk_nd Complex [2%nat] [(0, 4)%R; RtoC 0]] None = Ok (Some y) /\ nd_shape y = [2%nat].
Proof.
  destruct (C50_rotation_fold [2%nat] [mk_nd Complex [2%nat] [(3, 0)%R; Ci]; mk_nd Complex [2%nat] [(0, 4)%R; RtoC 0]]) as (y & H & _ & E & _); [discriminate|repeat constructor|]. now exists y.
Qed.

(** ** C60 *)
Definition gauss (sigma : R) (g c : point) : R :=
  let '(g0, g1, g2) := g in let '(c0, c1, c2) := c in
  exp (- ((g0 - c0) * (g0 - c0) + (g1 - c1) * (g1 - c1) + (g2 - c2) * (g2 - c2)) / (2 * (sigma * sigma))).
Definition wsum (sigma : R) (g : point) (wps : list (R * point)) : R :=
  fold_right Rplus 0%R (map (fun wc => (fst wc * gauss sigma g (snd wc))%R) wps).
Lemma bump_gauss sigma g c : sigma <> 0%R -> bump sigma g c = gauss sigma g c.
Proof. intros H. destruct g as [[g0 g1] g2], c as [[c0 c1] c2]. cbn. f_equal. field. exact H. Qed.
Lemma loop_sum sigma g pre suf : sigma <> 0%R -> Forall (fun wc => fst wc <> 0%R) pre -> (suf = [] \/ exists c r, suf = (0%R, c) :: r) ->
  forall acc, gaussian_loop sigma g (pre ++ suf) acc = (acc + wsum sigma g pre)%R.
Proof.
  intros Hsig Hp Hs. induction Hp as [|[w c] pre Hw Hp IH]; intros acc.
  - cbn [app]. unfold wsum. cbn. rewrite Rplus_0_r. destruct Hs as [-> | (c & r & ->)]; [reflexivity|]. cbn. destruct (Req_EM_T 0 0); [reflexivity|lra].
  - cbn [app gaussian_loop]. cbn [fst] in Hw. destruct (Req_EM_T w 0); [contradiction|]. rewrite IH, bump_gauss by exact Hsig. unfold wsum. cbn [map fold_right fst snd]. ring.
Qed.
(** The weighted sum of the points before the first zero weight; the rest of the list is ignored. *)
Theorem C60_up_to_first_zero : forall grid sigma signals k pre suf i g, (0 < sigma)%R ->
  nth_error signals k = Some (pre ++ suf) -> nth_error grid i = Some g ->
  Forall (fun wc => fst wc <> 0%R) pre -> (suf = [] \/ exists c r, suf = (0%R, c) :: r) ->
  List.length (generate_weighted_sum_of_gaussians grid signals sigma) = List.length signals /\
  exists v, nth_error (generate_weighted_sum_of_gaussians grid signals sigma) k = Some v /\ List.length v = List.length grid /\
    nth_error v i = Some ((fold_right Rplus 0 (map (fun wc => fst wc * gauss sigma g (snd wc)) pre)) / (Rpower (2 * PI) (3 / 2) * (sigma * sigma * sigma)))%R.
Proof.
  intros grid sigma signals k pre suf i g Hsig Hk Hi Hp Hs. split; [apply map_length|].
  exists (map (fun g => weighted_sum_at sigma g (pre ++ suf)) grid). unfold generate_weighted_sum_of_gaussians.
  rewrite nth_error_map, Hk. cbn [option_map]. split; [reflexivity|]. split; [apply map_length|]. rewrite nth_error_map, Hi. cbn [option_map]. f_equal.
  unfold weighted_sum_at. rewrite (loop_sum sigma g pre suf ltac:(lra) Hp Hs). rewrite Rplus_0_l. unfold wsum. f_equal. f_equal. cbn. ring.
Qed.
Print Assumptions C60_up_to_first_zero.
(** When zero weights are only at the end, this is the sum over all the points. *)
Theorem C60_full_sum : forall grid sigma signals k wps m i g, (0 < sigma)%R ->
  nth_error signals k = Some wps -> nth_error grid i = Some g ->
  (forall n wc, nth_error wps n = Some wc -> (fst wc = 0%R <-> (m <= n)%nat)) ->
  exists v, nth_error (generate_weighted_sum_of_gaussians grid signals sigma) k = Some v /\
    nth_error v i = Some ((fold_right Rplus 0 (map (fun wc => fst wc * gauss sigma g (snd wc)) wps)) / (Rpower (2 * PI) (3 / 2) * (sigma * sigma * sigma)))%R.
Proof.
  intros grid sigma signals k wps m i g Hsig Hk Hi Hz.
  assert (Hpre : Forall (fun wc : R * point => fst wc <> 0%R) (firstn m wps)).
  { apply Forall_forall. intros wc Hin. apply In_nth_error in Hin as (n & Hn). assert (n < m)%nat.
    { assert (H : nth_error (firstn m wps) n <> None) by congruence. apply nth_error_Some in H. rewrite firstn_length in H. lia. }
    rewrite <- (firstn_skipn m wps) in Hz. specialize (Hz n wc). rewrite nth_error_app1 in Hz by (apply nth_error_Some; congruence). intros E. apply (Hz Hn) in E. lia. }
  assert (Hsuf : Forall (fun wc : R * point => fst wc = 0%R) (skipn m wps)).
  { apply Forall_forall. intros wc Hin. apply In_nth_error in Hin as (n & Hn). apply (Hz (m + n)%nat wc); [|lia].
    assert (Hm : (m <= List.length wps)%nat). { assert (H : nth_error (skipn m wps) n <> None) by congruence. apply nth_error_Some in H. rewrite skipn_length in H. lia. }
    rewrite <- (firstn_skipn m wps) at 1. rewrite nth_error_app2 by (rewrite firstn_length; lia). rewrite firstn_length. replace (m + n - Nat.min m (List.length wps))%nat with n by lia. exact Hn. }
  assert (Hhd : skipn m wps = [] \/ exists c r, skipn m wps = (0%R, c) :: r).
  { destruct (skipn m wps) as [|[w c] r]; [now left|]. right. inversion Hsuf as [|? ? E _]; subst. cbn in E. subst. now exists c, r. }
  rewrite <- (firstn_skipn m wps) in Hk. destruct (C60_up_to_first_zero grid sigma signals k _ _ i g Hsig Hk Hi Hpre Hhd) as (_ & v & H1 & _ & H2).
  exists v. split; [exact H1|]. rewrite H2. do 2 f_equal. rewrite <- (firstn_skipn m wps) at 2. rewrite map_app, fold_right_app.
  replace (fold_right Rplus 0%R (map (fun wc => (fst wc * gauss sigma g (snd wc))%R) (skipn m wps))) with 0%R; [reflexivity|].
  clear - Hsuf. induction Hsuf as [|wc l E _ IH]; [reflexivity|]. cbn [map fold_right]. rewrite E, <- IH. ring.
Qed.
Print Assumptions C60_full_sum.
Example C60_instance : exists v, nth_error (generate_weighted_sum_of_gaussians [(0, 0, 0)%R] [[(2, (0, 0, 0)); (0, (1, 0, 0)); (7, (1, 1, 1))]%R] 1) 0 = Some v /\
  nth_error v 0 = Some (2 / Rpower (2 * PI) (3 / 2))%R.
Proof.
  destruct (C60_up_to_first_zero [(0, 0, 0)%R] 1 [[(2, (0, 0, 0)); (0, (1, 0, 0)); (7, (1, 1, 1))]%R] 0 [(2, (0, 0, 0))%R] [(0, (1, 0, 0)); (7, (1, 1, 1))]%R 0 (0, 0, 0)%R) as (_ & v & H1 & _ & H2).
  - lra.
  - reflexivity.
  - reflexivity.
  - constructor; [cbn; lra|constructor].
  - right. do 2 eexists. reflexivity.
  - exists v. split; [exact H1|]. rewrite H2. f_equal. cbn. replace (- ((0 - 0) * (0 - 0) + (0 - 0) * (0 - 0) + (0 - 0) * (0 - 0)) / (2 * (1 * 1)))%R with 0%R by field. rewrite exp_0. f_equal; ring.
Qed.
