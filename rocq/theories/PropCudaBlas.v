(** C97: the product of a tensor and a filter through cuBLAS. *)
From Coq Require Import Reals ZArith List Bool Arith Lia Permutation.
From Coquelicot Require Import Complex.
From Verif Require Import Base NdArray Backend NdProofs ComplexOps Dft Dft2 Conv1d Torch1d TorchRel Cuda CudaProofs CudaProofs2 PropCuda CudaBlas.
Import ListNotations.
Local Open Scope Z_scope.

Definition well_formed (x : tensor) : Prop := length (t_data x) = prod (t_shape x).

Section product.
Variables (m n : nat) (a x : list (option C)).
Hypothesis Hm : (0 < m)%nat.
Hypothesis Ha : (n * m <= length a)%nat.
Hypothesis Hx : (m <= length x)%nat.
Definition entry p := cell_mult (nth p a None) (nth (p mod m)%nat x None).

Lemma blas_some : exists ws, cublas_cdgmm m n a (Z.of_nat m) x 1 (Z.of_nat m) = Some ws /\ map fst ws = map Z.of_nat (seq 0 (n * m)) /\ forall w, In w ws -> snd w = entry (Z.to_nat (fst w)).
Proof.
  set (step := fun (ij : Z * Z) (ws : option (list (Z * option C))) => let '(j, i) := ij in
      (u <~ load a (i + j * Z.of_nat m) ;; v <~ load x (i * 1) ;; ws <~ ws ;; Some ((i + j * Z.of_nat m, cell_mult u v) :: ws))).
  assert (G : forall l, (forall j i, In (j, i) l -> 0 <= i < Z.of_nat m /\ 0 <= j < Z.of_nat n) ->
    fold_right step (Some []) l = Some (map (fun ji => (snd ji + fst ji * Z.of_nat m, entry (Z.to_nat (snd ji + fst ji * Z.of_nat m)))) l)).
  { induction l as [|[j i] l IH]; intros H; [reflexivity|]. cbn [fold_right map fst snd]. rewrite IH by (intros; apply H; now right). destruct (H j i (or_introl eq_refl)) as [Hi Hj].
    assert (Hr : 0 <= i + j * Z.of_nat m < Z.of_nat (n * m)) by nia. unfold step at 1.
    rewrite (load_ok a _ None), (load_ok x _ None) by lia. cbn [obind]. unfold entry. do 5 f_equal. f_equal.
    replace (Z.to_nat (i + j * Z.of_nat m)) with (Z.to_nat i + Z.to_nat j * m)%nat by nia. rewrite Nat.mod_add, Nat.mod_small by lia. lia. }
  unfold cublas_cdgmm. fold step. rewrite G.
  2: { intros j i H. apply in_prod_iff in H. destruct H as [H1 H2]. apply in_map_iff in H1, H2. destruct H1 as (q & <- & H1). destruct H2 as (r & <- & H2). apply in_seq in H1, H2. lia. }
  eexists. split; [reflexivity|]. split.
  - rewrite map_map. cbn [fst]. clear G step Ha. induction n as [|k IH]; [reflexivity|].
    replace (S k * m)%nat with (k * m + m)%nat by lia. rewrite seq_app, map_app, <- IH. rewrite seq_S, map_app. cbn [map]. rewrite Nat.add_0_l.
    assert (Ep : forall (l1 l2 : list Z) (l : list Z), list_prod (l1 ++ l2) l = list_prod l1 l ++ list_prod l2 l).
    { intros l1 l2 l. induction l1 as [|h l1 IHl]; [reflexivity|]. cbn [app list_prod]. now rewrite IHl, app_assoc. }
    rewrite Ep, map_app. f_equal. cbn [list_prod]. rewrite app_nil_r, !map_map. cbn [fst snd]. rewrite (seq_offset (k * m)), map_map. apply map_ext. intros i. nia.
  - intros w Hw. apply in_map_iff in Hw. destruct Hw as ([j i] & <- & _). reflexivity.
Qed.
End product.

Lemma skip_suffix (pre sB : list nat) : skipn (length (pre ++ sB) + 1 - (length sB + 1))%nat (pre ++ sB) = sB.
Proof. rewrite app_length. replace (length pre + length sB + 1 - (length sB + 1))%nat with (length pre) by lia. rewrite skipn_app, skipn_all, Nat.sub_diag. reflexivity. Qed.
Lemma first_prefix (pre sB : list nat) : firstn (length (pre ++ sB) - length sB)%nat (pre ++ sB) = pre.
Proof. rewrite app_length. replace (length pre + length sB - length sB)%nat with (length pre) by lia. rewrite firstn_app, firstn_all, Nat.sub_diag. cbn. apply app_nil_r. Qed.

Lemma torch_product d pre sB cA cB : t_cdgmm (mk_t d ((pre ++ sB) ++ [2])%nat cA true) (mk_t d (sB ++ [2])%nat cB true) =
  Ok (mk_t d ((pre ++ sB) ++ [2])%nat (concat (map (cdgmm_complex_row cB) (chunks (prod pre) (prod sB * 2) cA))) true).
Proof.
  unfold t_cdgmm, t_complex_check, t_contiguous_check. cbn [t_shape t_data t_dtype t_contig]. rewrite !shape_split. cbn [bind Nat.eqb negb raise_if].
  rewrite skip_suffix, first_prefix. destruct (list_eq_dec Nat.eq_dec sB sB) as [_|N]; [|congruence]. replace (fdtype_eqb d d) with true by (now destruct d). reflexivity.
Qed.
Lemma cuda_product_ok d pre sB cA cB : (0 < prod sB)%nat -> length cA = (prod pre * (prod sB * 2))%nat -> length cB = (prod sB * 2)%nat ->
  let A := mk_t d ((pre ++ sB) ++ [2])%nat cA true in let B := mk_t d (sB ++ [2])%nat cB true in
  cuda_cdgmm A B = Ok (Launched d ((pre ++ sB) ++ [2])%nat (cublas_cdgmm (prod sB) (prod pre) (cells A) (Z.of_nat (prod sB)) (cells B) 1 (Z.of_nat (prod sB)))).
Proof.
  intros Hp HA HB A B. unfold cuda_cdgmm, A, B. cbn [t_shape t_data t_dtype t_contig]. rewrite !shape_split. cbn [bind Nat.eqb negb raise_if andb].
  rewrite skip_suffix. destruct (list_eq_dec Nat.eq_dec sB sB) as [_|N]; [|congruence]. replace (fdtype_eqb d d) with true by (now destruct d). cbn [negb raise_if bind orb].
  rewrite HB, HA, (proj2 (Nat.eqb_neq _ _)) by lia. cbn [raise_if bind]. rewrite !Nat.div_mul by lia. reflexivity.
Qed.

(** In single precision every number of the output is written exactly once, with the value of the PyTorch backend. *)
Theorem C97_single : forall A B pre sB, t_shape A = (pre ++ sB ++ [2])%nat -> t_shape B = (sB ++ [2])%nat -> well_formed A -> well_formed B ->
  t_contig A = true -> t_contig B = true -> t_dtype A = F32 -> t_dtype B = F32 -> (0 < prod sB)%nat ->
  exists ws r, cuda_cdgmm A B = Ok (Launched F32 (t_shape A) (Some ws)) /\ t_cdgmm A B = Ok r /\ t_shape r = t_shape A /\ t_dtype r = F32 /\
    each_once (prod pre * prod sB) ws /\ leaves (prod pre * prod sB) ws (map Some (of_pairs (t_data r))).
Proof.
  intros [dA shA cA kA] [dB shB cB kB] pre sB HA HB WA WB KA KB DA DB Hp. unfold well_formed in *. cbn [t_shape t_data t_dtype t_contig] in *. subst dA dB kA kB shA shB.
  rewrite app_assoc in *. rewrite (prod_app (pre ++ sB)), (prod_app pre) in WA. rewrite prod_app in WB. change (prod [2%nat]) with 2%nat in *.
  rewrite torch_product, cuda_product_ok by lia. cbn [t_shape].
  destruct (flat_of_pairs (prod pre * prod sB) cA) as [FA EA]; [lia|]. destruct (flat_of_pairs (prod sB) cB) as [FB EB]; [lia|]. unfold C in EA, EB.
  set (a := cells (mk_t F32 ((pre ++ sB) ++ [2])%nat cA true)). set (b := cells (mk_t F32 (sB ++ [2])%nat cB true)).
  assert (La : a = map Some (of_pairs cA)) by reflexivity. assert (Lb : b = map Some (of_pairs cB)) by reflexivity.
  destruct (blas_some (prod sB) (prod pre) a b Hp) as (ws & E & H1 & H2); [rewrite La, map_length; unfold C in *; lia|rewrite Lb, map_length; unfold C in *; lia|].
  rewrite E. exists ws. eexists. split; [reflexivity|]. split; [reflexivity|]. split; [reflexivity|]. split; [reflexivity|].
  assert (Ho : each_once (prod pre * prod sB) ws) by (unfold each_once; now rewrite H1). split; [exact Ho|].
  intros ws' init Hw Hi. rewrite (store_all _ ws ws' init _ Ho H2 Hw Hi). cbn [t_data].
  transitivity (map Some (concat (map (mul_row complex_ops (of_pairs cB)) (chunks (prod pre) (prod sB) (of_pairs cA))))).
  2: { f_equal. rewrite <- FB at 2. rewrite <- FA at 2. rewrite (flat_chunks 2) by lia. rewrite map_map.
       rewrite (map_ext _ (fun r => flat 2 (mul_row complex_ops (of_pairs cB) r))) by (intros; apply mul_row_flat_complex).
       rewrite <- (map_map (mul_row complex_ops (of_pairs cB)) (flat 2)), <- flat_concat, of_flat. reflexivity. }
  assert (Er : map (mul_row complex_ops (of_pairs cB)) (chunks (prod pre) (prod sB) (of_pairs cA)) =
               map (fun row => map (fun i => Cmult (nth i row (RtoC 0)) (nth i (of_pairs cB) (RtoC 0))) (seq 0 (prod sB))) (chunks (prod pre) (prod sB) (of_pairs cA))).
  { destruct (chunks_ok (prod pre) (prod sB) (of_pairs cA) EA) as (_ & F & _). rewrite Forall_forall in F. apply map_ext_in. intros row Hr. specialize (F row Hr).
    unfold mul_row. cbn [o_mul complex_ops]. apply nth_ext with (d := Cmult (RtoC 0) (RtoC 0)) (d' := Cmult (RtoC 0) (RtoC 0)); rewrite !map_length, combine_length, ?seq_length; [unfold C in *; lia|]. intros i Hi'.
    rewrite (map_nth (fun ab : C * C => Cmult (fst ab) (snd ab)) _ (RtoC 0, RtoC 0)). rewrite combine_nth by (unfold C in *; lia).
    match goal with |- _ = nth i (map ?f ?q) ?dd => rewrite (nth_indep (map f q) dd (f 0%nat)) by (rewrite map_length, seq_length; unfold C in *; lia) end.
    rewrite (map_nth (fun i => Cmult (nth i row (RtoC 0)) (nth i (of_pairs cB) (RtoC 0)))), seq_nth by (unfold C in *; lia). reflexivity. }
  rewrite Er, (concat_rows (fun row i => Cmult (nth i row (RtoC 0)) (nth i (of_pairs cB) (RtoC 0)))) by exact Hp. rewrite rows_length, map_map. apply map_ext_in. intros p Hp'. apply in_seq in Hp'.
  assert (Hm : (p mod prod sB < prod sB)%nat) by (apply Nat.mod_upper_bound; lia). assert (Hd : (p / prod sB < prod pre)%nat) by (apply Nat.div_lt_upper_bound; lia).
  unfold entry. rewrite La, Lb.
  rewrite (nth_indep (map Some (of_pairs cA)) None (Some (RtoC 0))) by (rewrite map_length; unfold C in *; lia). rewrite (map_nth Some).
  rewrite (nth_indep (map Some (of_pairs cB)) None (Some (RtoC 0))) by (rewrite map_length; unfold C in *; lia). rewrite (map_nth Some). cbn [cell_mult]. do 2 f_equal.
  change (at_ (of_pairs cA) p = at_ (nth (p / prod sB) (chunks (prod pre) (prod sB) (of_pairs cA)) []) (p mod prod sB)). rewrite at_row by assumption. unfold px, Backend2d.iat, at_. f_equal.
  pose proof (Nat.div_mod p (prod sB) ltac:(lia)). lia.
Qed.
Print Assumptions C97_single.

(** In double precision the call, made for single precision, leaves the second half of the output as it was: the 2 * n cells of the
    output hold n numbers and only the first n cells are written, with products of halves of the inputs. *)
Theorem C97_double_refuted : forall A B pre sB, t_shape A = (pre ++ sB ++ [2])%nat -> t_shape B = (sB ++ [2])%nat -> well_formed A -> well_formed B ->
  t_contig A = true -> t_contig B = true -> t_dtype A = F64 -> t_dtype B = F64 -> (0 < prod pre)%nat -> (0 < prod sB)%nat ->
  let n := (prod pre * prod sB)%nat in
  (exists r, t_cdgmm A B = Ok r) /\
  exists ws, cuda_cdgmm A B = Ok (Launched F64 (t_shape A) (Some ws)) /\ each_once n ws /\ (forall w, In w ws -> snd w = None) /\
    length (cells A) = (2 * n)%nat /\ forall l, ~ leaves (2 * n) ws l.
Proof.
  intros [dA shA cA kA] [dB shB cB kB] pre sB HA HB WA WB KA KB DA DB Hpre Hp n. unfold well_formed in *. cbn [t_shape t_data t_dtype t_contig] in *. subst dA dB kA kB shA shB.
  rewrite app_assoc in *. rewrite (prod_app (pre ++ sB)), (prod_app pre) in WA. rewrite prod_app in WB. change (prod [2%nat]) with 2%nat in *.
  rewrite torch_product, cuda_product_ok by lia. cbn [t_shape]. split; [eauto|].
  destruct (flat_of_pairs (prod pre * prod sB) cA) as [_ EA]; [lia|]. destruct (flat_of_pairs (prod sB) cB) as [_ EB]; [lia|].
  set (a := cells (mk_t F64 ((pre ++ sB) ++ [2])%nat cA true)). set (b := cells (mk_t F64 (sB ++ [2])%nat cB true)).
  assert (La : a = repeat None (2 * n)) by (unfold a, cells; cbn [t_dtype t_data]; unfold C in *; now rewrite EA).
  assert (Lb : b = repeat None (2 * prod sB)) by (unfold b, cells; cbn [t_dtype t_data]; unfold C in *; now rewrite EB).
  destruct (blas_some (prod sB) (prod pre) a b Hp) as (ws & E & H1 & H2); [rewrite La, repeat_length; lia|rewrite Lb, repeat_length; lia|].
  rewrite E. exists ws. split; [reflexivity|]. split; [unfold each_once; now rewrite H1|]. split; [|split; [rewrite La; apply repeat_length|]].
  - intros w Hw. rewrite (H2 w Hw). unfold entry. rewrite La, nth_repeat. reflexivity.
  - intros l Hl. assert (Hn : (0 < n)%nat) by (unfold n; nia).
    assert (K : forall c : option C, nth n (store ws (repeat c (2 * n))) c = c).
    { intros c. rewrite (store_nth (fun _ => None)); rewrite ?repeat_length; [| |lia].
      - replace (existsb (fun w => fst w =? Z.of_nat n) ws) with false; [apply nth_repeat|]. symmetry. apply not_true_iff_false. intros T. apply existsb_exists in T.
        destruct T as (w & Hw & Ew). apply Z.eqb_eq in Ew. assert (Hin : In (fst w) (map fst ws)) by now apply in_map. rewrite H1 in Hin. apply in_map_iff in Hin. destruct Hin as (q & Eq & Hq). apply in_seq in Hq. fold n in Hq. lia.
      - intros w Hw. split.
        + assert (Hin : In (fst w) (map fst ws)) by now apply in_map. rewrite H1 in Hin. apply in_map_iff in Hin. destruct Hin as (q & <- & Hq). apply in_seq in Hq. fold n in Hq. lia.
        + rewrite (H2 w Hw). unfold entry. rewrite La, nth_repeat. reflexivity. }
    pose proof (K None) as K0. pose proof (K (Some (RtoC 0))) as K1.
    rewrite (Hl ws _ (Permutation_refl _) (repeat_length None _)) in K0. rewrite (Hl ws _ (Permutation_refl _) (repeat_length (Some (RtoC 0)) _)) in K1.
    assert (Hl' : length l = (2 * n)%nat). { rewrite <- (Hl ws (repeat None (2 * n)) (Permutation_refl _) (repeat_length _ _)), store_length. apply repeat_length. }
    rewrite (nth_indep l _ None) in K1 by lia. rewrite K0 in K1. discriminate.
Qed.
Print Assumptions C97_double_refuted.

(** A real filter: the same tensor as with the PyTorch backend. *)
Theorem C97_real_filter : forall A B sB, t_shape B = (sB ++ [1])%nat -> t_contig A = true -> t_contig B = true -> t_shape A <> [] ->
  cuda_cdgmm A B = match t_cdgmm A B with Ok r => Ok (Computed r) | Err e => Err e end.
Proof.
  intros A B sB HB KA KB HA. destruct (@exists_last _ (t_shape A) HA) as (sA & cA & EA).
  unfold cuda_cdgmm, t_cdgmm, t_complex_check, t_contiguous_check. rewrite HB, EA, !shape_split, KA, KB. cbn [bind Nat.eqb negb raise_if andb].
  destruct (Nat.eqb cA 2); cbn [negb raise_if bind]; [|reflexivity].
  destruct (list_eq_dec Nat.eq_dec _ sB) as [_|_]; cbn [negb raise_if bind]; [|reflexivity].
  destruct (fdtype_eqb (t_dtype A) (t_dtype B)); cbn [negb raise_if bind]; reflexivity.
Qed.
Print Assumptions C97_real_filter.

(** Both backends refuse the same pairs of contiguous tensors, with the same exceptions (for filters that are not empty). *)
Theorem C97_errors : forall A B, t_shape A <> [] -> t_shape B <> [] -> t_contig A = true -> t_contig B = true -> t_data B <> [] -> forall e,
  cuda_cdgmm A B = Err e <-> t_cdgmm A B = Err e.
Proof.
  intros A B HA HB KA KB HD e. destruct (@exists_last _ (t_shape A) HA) as (sA & cA & EA). destruct (@exists_last _ (t_shape B) HB) as (sB & cB & EB).
  assert (HD' : Nat.eqb (length (t_data B)) 0 = false) by (destruct (t_data B); [congruence|reflexivity]).
  unfold cuda_cdgmm, t_cdgmm, t_complex_check, t_contiguous_check. rewrite EB, EA, !shape_split, KA, KB, HD'. cbn [bind Nat.eqb negb raise_if andb orb].
  destruct (Nat.eqb_spec cA 2) as [->|NA]; cbn [negb raise_if bind]; destruct (Nat.eqb_spec cB 1) as [->|N1]; cbn [Nat.eqb negb andb raise_if bind];
    try (destruct (Nat.eqb_spec cB 2) as [->|N2]; cbn [Nat.eqb negb andb raise_if bind]); try (split; congruence);
    (destruct (list_eq_dec Nat.eq_dec _ sB) as [_|_]; cbn [negb raise_if bind]; [|split; congruence]);
    (destruct (fdtype_eqb (t_dtype A) (t_dtype B)); cbn [negb raise_if bind]; [|split; congruence]); (split; congruence).
Qed.
Print Assumptions C97_errors.

(** Two signals of 3 samples; the tensors of the same shapes in double precision; a filter of another length. *)
Example C97_instance :
  let A d := mk_t d [2; 1; 3; 2]%nat (repeat 1%R 12) true in let B d := mk_t d [3; 2]%nat (repeat 2%R 6) true in
  (exists ws r, cuda_cdgmm (A F32) (B F32) = Ok (Launched F32 [2; 1; 3; 2]%nat (Some ws)) /\ t_cdgmm (A F32) (B F32) = Ok r /\ leaves 6 ws (map Some (of_pairs (t_data r)))) /\
  (exists ws, cuda_cdgmm (A F64) (B F64) = Ok (Launched F64 [2; 1; 3; 2]%nat (Some ws)) /\ forall l, ~ leaves 12 ws l) /\
  cuda_cdgmm (A F32) (mk_t F32 [4; 2]%nat (repeat 2%R 8) true) = Err RuntimeError /\
  (exists r, cuda_cdgmm (A F64) (mk_t F64 [3; 1]%nat (repeat 2%R 3) true) = Ok (Computed r)).
Proof.
  intros A B. split; [|split; [|split]].
  - destruct (C97_single (A F32) (B F32) [2; 1]%nat [3]%nat) as (ws & r & E1 & E2 & _ & _ & _ & H); try reflexivity; try (cbn; lia). exists ws, r. auto.
  - destruct (C97_double_refuted (A F64) (B F64) [2; 1]%nat [3]%nat) as (_ & ws & E1 & _ & _ & _ & H); try reflexivity; try (cbn; lia). exists ws. auto.
  - apply C97_errors; try discriminate; reflexivity.
  - rewrite (C97_real_filter _ _ [3]%nat) by (reflexivity || discriminate). eexists. reflexivity.
Qed.
