(** Evaluation of the 3-D scattering transform on arrays seen as lists of volumes. *)
From Coq Require Import Reals ZArith List Bool Arith Lia Lra.
From Coquelicot Require Import Complex.
From Verif Require Import Base BaseProofs NdArray NdProofs StackProofs Backend Backend2d Images ComplexOps Dft Conv1d Dft2 Mats Backend3d Core3d Dft3.
Import ListNotations.
Local Open Scope nat_scope.

(** ** What the transform computes on one volume *)
Definition sum_of (l : list R) : R := fold_right Rplus 0%R l.
Section Spec.
Variables (M N D : nat).
(** |x * psi| at a voxel, for a filter given by its Fourier transform. *)
Definition envelope3 (w v : list C) (a b c : nat) : R :=
  Cmod (conv3 M N D v (idft3 M N D w) (Z.of_nat a) (Z.of_nat b) (Z.of_nat c)).
(** The wavelet modulus: root of the sum of squares over the components, or the first component alone. *)
Definition U3 (cov : bool) (ws : list (list C)) (v : list C) : list C :=
  vol M N D (fun a b c => RtoC (if cov then sqrt (sum_of (map (fun w => pow (envelope3 w v a b c) 2) ws)) else envelope3 (hd [] ws) v a b c)).
Lemma U3_length cov ws v : List.length (U3 cov ws v) = M * (N * D).
Proof. apply vol_length. Qed.
End Spec.

(** ** Arrays of volumes *)
Definition of_vols (d : dtype) (B M N D : nat) (vols : list (list C)) : nd C := mk_nd d [B; M; N; D] (concat vols).
Definition vols_ok (B M N D : nat) (vols : list (list C)) : Prop := rows_ok [B] (M * (N * D)) vols.
Definition filter3_ok (M N D : nat) (w : nd C) : Prop := nd_shape w = [M; N; D] /\ nd_dtype w <> OtherT /\ nd_wf w.
Lemma filter3_length M N D w : filter3_ok M N D w -> List.length (nd_data w) = M * (N * D).
Proof. intros (H & _ & E). rewrite E, H. cbn. lia. Qed.

Section Ops3.
Variables (B M N D : nat).
Hypothesis (HM : 0 < M) (HN : 0 < N) (HD : 0 < D).
Notation V := (M * (N * D)).
Lemma vols_ok_map (f : list C -> list C) vols : (forall v, List.length v = V -> List.length (f v) = V) -> vols_ok B M N D vols -> vols_ok B M N D (map f vols).
Proof. intros H Hv. exact (rows_ok_map [B] V V f vols H Hv). Qed.
Lemma vols_chunks vols : vols_ok B M N D vols -> chunks B V (concat vols) = vols.
Proof. intros [H1 H2]. replace B with (List.length vols) by (rewrite H1; cbn; lia). now apply chunks_concat. Qed.
Lemma fftn3_of f d vols : vols_ok B M N D vols -> fftn3 f (of_vols d B M N D vols) = Ok (of_vols Complex B M N D (map (sep3 f M N D) vols)).
Proof.
  intros Hv. unfold fftn3, of_vols, split_last3. cbn [nd_shape rev app bind].
  destruct (Nat.eqb_spec M 0); [lia|]. destruct (Nat.eqb_spec N 0); [lia|]. destruct (Nat.eqb_spec D 0); [lia|]. cbn [orb nd_data].
  replace (prod [B]) with B by (cbn; lia). now rewrite vols_chunks.
Qed.
Lemma np3_rfft_of vols : vols_ok B M N D vols -> np3_rfft (of_vols Real B M N D vols) = Ok (of_vols Complex B M N D (map (sep3 dft M N D) vols)).
Proof. intros Hv. unfold np3_rfft, real_check. cbn [of_vols is_real nd_dtype negb raise_if bind]. now apply fftn3_of. Qed.
Lemma np3_ifft_of vols : vols_ok B M N D vols -> np3_ifft (of_vols Complex B M N D vols) = Ok (of_vols Complex B M N D (map (sep3 idft M N D) vols)).
Proof. intros Hv. unfold np3_ifft, complex_check. cbn [of_vols is_complex nd_dtype negb raise_if bind]. now apply fftn3_of. Qed.
Lemma np3_cdgmm_of vols w : vols_ok B M N D vols -> filter3_ok M N D w ->
  np_cdgmm cops (of_vols Complex B M N D vols) w = Ok (of_vols Complex B M N D (map (mul_row cops (nd_data w)) vols)).
Proof.
  intros Hv (Hs & Hd & _). unfold np_cdgmm. cbn [of_vols is_complex nd_dtype negb nd_shape].
  rewrite Hs. cbn [List.length trailing Nat.sub skipn firstn].
  destruct (list_eq_dec Nat.eq_dec [M; N; D] [M; N; D]) as [_|H]; [|congruence].
  replace (negb (is_complex w) && negb (is_real w))%bool with false.
  2:{ unfold is_complex, is_real. destruct (nd_dtype w); congruence || reflexivity. }
  replace (prod [M; N; D]) with V by (cbn; lia). replace (prod [B]) with B by (cbn; lia). unfold of_vols. cbn [nd_data]. now rewrite vols_chunks.
Qed.
Lemma tf_mul_eq a b : tf_mul a b = Cmult a b.
Proof. unfold tf_mul. destruct a, b. unfold Cplus, Cmult, Ci, RtoC. cbn. f_equal; ring. Qed.
Lemma tf3_cdgmm_of vols w : vols_ok B M N D vols -> filter3_ok M N D w ->
  tf3_cdgmm (of_vols Complex B M N D vols) w = Ok (of_vols Complex B M N D (map (mul_row cops (nd_data w)) vols)).
Proof.
  intros Hv (Hs & Hd & _). unfold tf3_cdgmm. rewrite Hs. cbn [of_vols nd_shape List.length Nat.eqb negb trailing Nat.sub skipn firstn].
  destruct (list_eq_dec Nat.eq_dec [M; N; D] [M; N; D]) as [_|H]; [|congruence].
  replace (prod [M; N; D]) with V by (cbn; lia). replace (prod [B]) with B by (cbn; lia). unfold of_vols. cbn [nd_data]. rewrite vols_chunks by exact Hv.
  do 3 f_equal. apply map_ext. intros r. unfold mul_row. apply map_ext. intros ab. apply tf_mul_eq.
Qed.
Lemma np3_modulus_of vols : np_modulus cops (of_vols Complex B M N D vols) = Ok (of_vols Real B M N D (map (map (fun z => RtoC (Cmod z))) vols)).
Proof. unfold np_modulus, of_vols. cbn [nd_dtype nd_shape nd_data o_abs complex_ops]. now rewrite concat_map. Qed.
Lemma np3_rotation_none vols : np3_modulus_rotation (of_vols Complex B M N D vols) None =
  Ok (of_vols Real B M N D (map (map (fun z => RtoC (sqrt (pow (Cmod z) 2)))) vols)).
Proof. unfold np3_modulus_rotation, of_vols. cbn [nd_shape nd_data]. now rewrite concat_map. Qed.
Lemma combine_concat {A A'} n (xs : list (list A)) (ys : list (list A')) : List.length xs = List.length ys ->
  Forall (fun r => List.length r = n) xs -> Forall (fun r => List.length r = n) ys ->
  combine (concat xs) (concat ys) = concat (map (fun xy => combine (fst xy) (snd xy)) (combine xs ys)).
Proof.
  revert ys. induction xs as [|x xs IH]; intros [|y ys] Hl Hx Hy; try discriminate; [reflexivity|].
  inversion Hx as [|? ? Ex Fx]; subst. inversion Hy as [|? ? Ey Fy]; subst. cbn [concat combine map fst snd].
  rewrite <- IH by first [assumption|now injection Hl]. clear - Ey. revert y Ey. induction x as [|a x IH]; intros [|c y] Ey; try discriminate; [reflexivity|].
  cbn [app combine]. f_equal. apply IH. now injection Ey.
Qed.
Lemma np3_rotation_some (f g : list C -> list C) vols : (forall v, List.length v = V -> List.length (f v) = V) -> (forall v, List.length v = V -> List.length (g v) = V) ->
  vols_ok B M N D vols ->
  np3_modulus_rotation (of_vols Complex B M N D (map f vols)) (Some (of_vols Real B M N D (map g vols))) =
  Ok (of_vols Real B M N D (map (fun v => map (fun mz => RtoC (sqrt (pow (Re (fst mz)) 2 + pow (Cmod (snd mz)) 2)%R)) (combine (g v) (f v))) vols)).
Proof.
  intros Hf Hg Hv. unfold np3_modulus_rotation, of_vols. cbn [nd_shape nd_data]. destruct (list_eq_dec Nat.eq_dec _ _) as [_|H]; [|congruence].
  do 2 f_equal. rewrite (combine_concat V).
  - rewrite concat_map, map_map. f_equal. clear. induction vols as [|v vols IH]; [reflexivity|]. cbn [map combine]. rewrite IH. reflexivity.
  - now rewrite !map_length.
  - exact (proj2 (vols_ok_map g vols Hg Hv)).
  - exact (proj2 (vols_ok_map f vols Hf Hv)).
Qed.
(** The integrals of every volume. *)
Definition moments (powers : list R) (v : list C) : list C := map (fun q => integral q v) powers.
Lemma nth_map_firstn (f : list C -> C) vols i : i < List.length vols -> firstn 1 (skipn (i * 1) (map f vols)) = [f (nth i vols [])].
Proof.
  rewrite Nat.mul_1_r. revert i. induction vols as [|v vols IH]; intros i Hi; [cbn in Hi; lia|]. destruct i as [|i]; [reflexivity|].
  cbn [map skipn nth]. apply IH. cbn in Hi. lia.
Qed.
Lemma np3_integrals_of powers vols : 0 < B -> powers <> [] -> vols_ok B M N D vols ->
  np3_integrals (of_vols Real B M N D vols) powers = Ok (of_rows Real [B] (List.length powers) (map (moments powers) vols)).
Proof.
  intros HB Hp Hv. unfold np3_integrals. cbn [of_vols nd_shape nd_data]. destruct (Nat.eqb_spec B 0); [lia|].
  replace (prod [M; N; D]) with V by (cbn; lia). rewrite vols_chunks by exact Hv. destruct Hv as [Hv _]. replace (prod [B]) with B in Hv by (cbn; lia).
  rewrite (stack_axis _ [B] []) by first [now destruct powers|now left|intros x Hx; apply in_map_iff in Hx as (q & <- & _); reflexivity].
  unfold stack_at. destruct powers as [|q0 qs]; [congruence|]. set (qs' := q0 :: qs) in *. unfold qs' at 1. cbn [map nd_shape List.length Nat.ltb Nat.leb].
  replace (forallb _ _) with true.
  2:{ symmetry. apply forallb_forall. intros y Hy. apply in_map_iff in Hy as (q & <- & _). cbn [nd_shape]. now destruct (list_eq_dec Nat.eq_dec [B] [B]). }
  cbn [firstn skipn app nd_dtype]. rewrite map_length. unfold of_rows. cbn [app]. do 2 f_equal.
  replace (prod [B]) with B by (cbn; lia). change (prod []) with 1. f_equal. rewrite <- (map_nth_seq' (moments qs') [] vols B Hv).
  apply map_ext_in. intros i Hi. apply in_seq in Hi. unfold moments. rewrite map_map. cbn [nd_data].
  rewrite (map_ext_in _ (fun q => [integral q (nth i vols [])])).
  - generalize qs'. intros l. induction l as [|q l IH]; [reflexivity|]. cbn [map concat app]. now rewrite IH.
  - intros q _. apply nth_map_firstn. lia.
Qed.
End Ops3.

(** ** The transform *)
Definition with_cdgmm (cd : nd C -> nd C -> res (nd C)) : backend3 (nd C) (nd C) := {|
  b3_rfft := np3_rfft; b3_ifft := np3_ifft; b3_cdgmm3d := cd; b3_modulus := np_modulus cops;
  b3_modulus_rotation := np3_modulus_rotation; b3_compute_integrals := np3_integrals; b3_stack := np3_stack;
  b3_shape := nd_shape; b3_reshape := reshape; b3_reshape_infer := reshape_infer |}.
(** Components of the filters of degree l and scale j. *)
Definition comps (F : list (list (list (nd C)))) (l j : Z) : list (list C) :=
  map (@nd_data C) (nth (Z.to_nat j) (nth (Z.to_nat l) F []) []).
(** Every degree up to L has filters of sizes M x N x D at every scale up to J. *)
Definition bank3_ok (M N D : nat) (L J : Z) (F : list (list (list (nd C)))) : Prop :=
  List.length F = Z.to_nat (L + 1) /\
  Forall (fun fl => List.length fl = Z.to_nat (J + 1) /\ Forall (fun ws => ws <> [] /\ Forall (filter3_ok M N D) ws) fl) F.

Section Run3.
Variables (cd : nd C -> nd C -> res (nd C)) (M N D : nat) (cov : bool).
Hypothesis (HM : 0 < M) (HN : 0 < N) (HD : 0 < D).
Hypothesis Hcd : forall B vols w, vols_ok B M N D vols -> filter3_ok M N D w ->
  cd (of_vols Complex B M N D vols) w = Ok (of_vols Complex B M N D (map (mul_row cops (nd_data w)) vols)).
Variables (B : nat) (vols : list (list C)).
Hypothesis Hvols : vols_ok B M N D vols.
Notation be := (with_cdgmm cd).
Notation V := (M * (N * D)).
Notation hats := (of_vols Complex B M N D (map (sep3 dft M N D) vols)).

Definition filt3 (w v : list C) : list C := vol M N D (fun a b c => conv3 M N D v (idft3 M N D w) (Z.of_nat a) (Z.of_nat b) (Z.of_nat c)).
Lemma filt3_length w v : List.length (filt3 w v) = V.
Proof. apply vol_length. Qed.
Lemma filt3_step {A} (cont : nd C -> res A) w : filter3_ok M N D w ->
  bind (cd hats w) (fun U => bind (np3_ifft U) cont) = cont (of_vols Complex B M N D (map (filt3 (nd_data w)) vols)).
Proof.
  intros Hw. assert (Hh : vols_ok B M N D (map (sep3 dft M N D) vols)) by (apply vols_ok_map; [intros; apply dft3_length|exact Hvols]).
  pose proof (filter3_length _ _ _ _ Hw) as Hl.
  rewrite Hcd by assumption. cbn [bind]. rewrite np3_ifft_of; try assumption.
  - cbn [bind]. do 2 f_equal. rewrite !map_map. apply map_ext_in. intros v Hv. destruct Hvols as [_ F]. rewrite Forall_forall in F.
    apply filter3_spec; try assumption. now apply F.
  - apply vols_ok_map; [|exact Hh]. intros v Hv. rewrite mul_row_length; congruence.
Qed.
Lemma rotation_loop_of ws (acc : list C -> nat -> nat -> nat -> R) : (forall v a b c, (0 <= acc v a b c)%R) -> Forall (filter3_ok M N D) ws ->
  rotation_loop be hats ws (Some (of_vols Real B M N D (map (fun v => vol M N D (fun a b c => RtoC (sqrt (acc v a b c)))) vols))) =
  Ok (Some (of_vols Real B M N D (map (fun v => vol M N D (fun a b c => RtoC (sqrt (acc v a b c + sum_of (map (fun w => pow (envelope3 M N D (nd_data w) v a b c) 2) ws))))) vols))).
Proof.
  intros Ha F. revert acc Ha. induction F as [|w ws Hw F IH]; intros acc Ha.
  - cbn [rotation_loop map sum_of fold_right]. do 3 f_equal. apply map_ext. intros v. apply vol_ext. intros. now rewrite Rplus_0_r.
  - cbn [rotation_loop b3_cdgmm3d b3_ifft b3_modulus_rotation with_cdgmm]. rewrite filt3_step by exact Hw.
    rewrite (np3_rotation_some B M N D (filt3 (nd_data w)) (fun v => vol M N D (fun a b c => RtoC (sqrt (acc v a b c))))) by first [intros; apply vol_length|exact Hvols].
    cbn [bind].
    rewrite (map_ext (fun v => map (fun mz => RtoC (sqrt (pow (Re (fst mz)) 2 + pow (Cmod (snd mz)) 2)%R)) (combine (vol M N D (fun a b c => RtoC (sqrt (acc v a b c)))) (filt3 (nd_data w) v)))
      (fun v => vol M N D (fun a b c => RtoC (sqrt (acc v a b c + pow (envelope3 M N D (nd_data w) v a b c) 2))))).
    + rewrite (IH (fun v a b c => (acc v a b c + pow (envelope3 M N D (nd_data w) v a b c) 2)%R)).
      * do 3 f_equal. apply map_ext. intros v. apply vol_ext. intros a b c _ _ _. cbn [map sum_of fold_right]. do 2 f_equal. unfold sum_of. ring.
      * intros v a b c. pose proof (Ha v a b c). pose proof (pow2_ge_0 (envelope3 M N D (nd_data w) v a b c)). lra.
    + intros v. unfold filt3. rewrite vol_combine, vol_map. apply vol_ext. intros a b c _ _ _. cbn [fst snd Re]. unfold RtoC, Re. cbn [fst].
      now rewrite pow2_sqrt by apply Ha.
Qed.
Lemma loop_of ws : ws <> [] -> Forall (filter3_ok M N D) ws ->
  rotation_loop be hats ws None = Ok (Some (of_vols Real B M N D (map (U3 M N D true (map (@nd_data C) ws)) vols))).
Proof.
  intros Hne F. destruct ws as [|w ws]; [congruence|]. inversion F as [|? ? Hw F']; subst.
  cbn [rotation_loop b3_cdgmm3d b3_ifft b3_modulus_rotation with_cdgmm]. rewrite filt3_step by exact Hw.
  rewrite np3_rotation_none, map_map. cbn [bind].
  rewrite (map_ext (fun v => map (fun z => RtoC (sqrt (pow (Cmod z) 2))) (filt3 (nd_data w) v)) (fun v => vol M N D (fun a b c => RtoC (sqrt (pow (envelope3 M N D (nd_data w) v a b c) 2))))).
  - rewrite (rotation_loop_of ws (fun v a b c => pow (envelope3 M N D (nd_data w) v a b c) 2)); [|intros; apply pow2_ge_0|exact F'].
    do 3 f_equal. apply map_ext. intros v. unfold U3. apply vol_ext. intros a b c _ _ _. cbn [map sum_of fold_right]. now rewrite map_map.
  - intros v. unfold filt3. now rewrite vol_map.
Qed.
Lemma single_of w (ws : list (nd C)) : filter3_ok M N D w ->
  bind (cd hats w) (fun U => bind (np3_ifft U) (np_modulus cops)) = Ok (of_vols Real B M N D (map (U3 M N D false (map (@nd_data C) (w :: ws))) vols)).
Proof.
  intros Hw. rewrite filt3_step by exact Hw. rewrite np3_modulus_of, map_map. do 2 f_equal. apply map_ext. intros v.
  unfold filt3, U3. rewrite vol_map. apply vol_ext. reflexivity.
Qed.
Section Bank.
Variables (F : list (list (list (nd C)))) (L J : Z).
Hypothesis HF : bank3_ok M N D L J F.
Lemma bank_at l j : (0 <= l <= L)%Z -> (0 <= j <= J)%Z -> exists fl ws, py_index F l = Ok fl /\ py_index fl j = Ok ws /\ ws <> [] /\ Forall (filter3_ok M N D) ws /\
  comps F l j = map (@nd_data C) ws.
Proof.
  intros Hl Hj. destruct HF as [H1 H2]. rewrite Forall_forall in H2.
  destruct (py_index_total F l) as (fl & Efl); [lia|]. pose proof (proj1 (py_index_nonneg F l fl ltac:(lia)) Efl) as N1.
  destruct (H2 fl (nth_error_In _ _ N1)) as [H3 H4].
  destruct (py_index_total fl j) as (ws & Ews); [lia|]. pose proof (proj1 (py_index_nonneg fl j ws ltac:(lia)) Ews) as N2.
  rewrite Forall_forall in H4. destruct (H4 ws (nth_error_In _ _ N2)) as [H5 H6].
  exists fl, ws. repeat split; try assumption. unfold comps. rewrite (nth_error_nth F _ [] N1). now rewrite (nth_error_nth fl _ [] N2).
Qed.
Lemma wavelet_modulus_of l j : (0 <= l <= L)%Z -> (0 <= j <= J)%Z ->
  wavelet_modulus be F cov hats l j = Ok (of_vols Real B M N D (map (U3 M N D cov (comps F l j)) vols)).
Proof.
  intros Hl Hj. destruct (bank_at l j Hl Hj) as (fl & ws & E1 & E2 & Hne & Hws & Ec). unfold wavelet_modulus. rewrite E1. cbn [bind]. rewrite E2. cbn [bind].
  rewrite Ec. destruct cov.
  - rewrite loop_of by assumption. reflexivity.
  - destruct ws as [|w ws]; [congruence|]. inversion Hws; subst. rewrite py_index_0. cbn [bind b3_cdgmm3d b3_ifft b3_modulus with_cdgmm]. now apply single_of.
Qed.
End Bank.
End Run3.
