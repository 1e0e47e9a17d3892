(** Evaluation of the 2-D frontends (NumPy, TensorFlow, Keras) on a batch of images. *)
From Coq Require Import String Reals ZArith List Bool Arith Lia.
From Coquelicot Require Import Complex.
From Verif Require Import Base BaseProofs NdArray Backend NdProofs ComplexOps Construct1d Utils1dProofs FactoryProofs Rows1d StackProofs Backend2d Core2d FilterBank2d Frontend2d Images Rows2d Pad2d.
Import ListNotations.
Local Open Scope nat_scope.
Notation cops := complex_ops.

Lemma Zpow_p2 J : (0 <= J)%Z -> Z.of_nat (p2 J) = (2 ^ J)%Z.
Proof. intros HJ. unfold p2. rewrite Nat2Z.inj_pow, Z2Nat.id by assumption. reflexivity. Qed.

(** ** The tabulated filters *)
Lemma periodize2_length {K} (o : ops K) M N x r : List.length (periodize2 o M N x r) = (M / 2 ^ r) * (N / 2 ^ r).
Proof. apply img_length. Qed.
Lemma zrange0_nth n i : (0 <= i < n)%Z -> nth_error (zrange 0 n) (Z.to_nat i) = Some i.
Proof. intros H. rewrite zrange_nth by lia. f_equal. lia. Qed.
Lemma level2_tab M N x (n l : Z) j th : (0 <= l < n)%Z ->
  level2_ok (mk_filter2 (map (fun res => level2 cops M N x (Z.to_nat res)) (zrange 0 n)) j th) l (M / p2 l) (N / p2 l).
Proof.
  intros Hl. exists (level2 cops M N x (Z.to_nat l)). cbn [g_levels]. split.
  - rewrite nth_error_map, zrange0_nth by lia. reflexivity.
  - unfold level2. cbn [nd_shape nd_dtype nd_data]. split; [reflexivity|]. split; [discriminate|]. apply periodize2_length.
Qed.
Lemma filter_bank_In M N J L f : In f (snd (filter_bank M N J L)) <-> exists j th, (0 <= j < J)%Z /\ (0 <= th < L)%Z /\ f = psi_2d M N J L j th.
Proof.
  unfold filter_bank. cbn [snd]. rewrite in_flat_map. split.
  - intros (j & Hj & Hin). apply in_map_iff in Hin as (th & <- & Hth). rewrite In_zrange in *. eauto.
  - intros (j & th & Hj & Hth & ->). exists j. rewrite In_zrange. split; [exact Hj|]. apply in_map_iff. exists th. rewrite In_zrange. auto.
Qed.
Lemma filter_bank_ready M N J L : (1 <= J)%Z -> 0 < M -> 0 < N -> Nat.divide (p2 J) M -> Nat.divide (p2 J) N ->
  ready2 J (fst (filter_bank M N J L)) (snd (filter_bank M N J L)) M N.
Proof.
  intros HJ HM HN DM DN. constructor; try assumption.
  - intros l Hl. unfold filter_bank. cbn [fst]. now apply level2_tab.
  - intros f Hf. apply filter_bank_In in Hf as (j & th & Hj & _ & ->). exact Hj.
  - intros f Hf. apply filter_bank_In in Hf as (j & th & Hj & _ & ->). pose proof (level2_tab M N (real_fft2 M N
      (morlet_2d M N (8 / 10 * IZR (2 ^ j)) (IZR (Z.quot (L - 2) 2 - th) * PI / IZR L) (3 / 4 * PI / IZR (2 ^ j)) (4 / IZR L))) (Z.min (j + 1) (Z.max (J - 1) 1)) 0 j th) as H.
    rewrite !div_p2_0 in H. apply H. lia.
  - intros f l Hf Hl. apply filter_bank_In in Hf as (j & th & Hj & _ & ->). cbn [g_j psi_2d] in Hl. unfold psi_2d. apply level2_tab. lia.
Qed.

(** ** Running an object *)
Definition usual2 (be : backend2 (nd C) (nd C)) : Prop :=
  (forall J phi psi pad mo x, paths2 be J phi psi pad mo x = paths2 (numpy_backend2 cops) J phi psi pad mo x) /\
  (forall x, b2_shape be x = nd_shape x) /\ (forall s x, b2_reshape be s x = reshape s x) /\ (forall s x, b2_reshape_infer be s x = reshape_infer s x) /\
  (forall l B m n, l <> [] -> (forall x, In x l -> nd_shape x = [B; m; n]) -> b2_stack be l = stack_at 1 l).
Lemma usual2_numpy : usual2 (numpy_backend2 cops).
Proof.
  repeat split. intros l B m n Hne Hl. cbn [b2_stack numpy_backend2]. unfold np2_stack.
  rewrite (stack_axis l [B] [m; n]) by first [assumption|now left]. reflexivity.
Qed.
Lemma usual2_tf : usual2 (tf_backend2 cops).
Proof.
  repeat split. intros l B m n Hne Hl. cbn [b2_stack tf_backend2].
  rewrite (stack_axis l [B] [m; n]) by first [assumption|now right]. reflexivity.
Qed.

Section Run.
Variables (be : backend2 (nd C) (nd C)) (s : scat2 (nd C) (nd C)).
Hypothesis (Hbe : usual2 be).
Notation p := (c_args s).
Notation J := (a_J p).
Variables (M N : nat).
Hypothesis (Hr : ready2 J (c_phi s) (c_psi s) M N).
Notation m := (M / p2 J - 2).
Notation n := (N / p2 J - 2).
(** Size of the images that are given. *)
Variables (M0 N0 : nat) (pre : list nat) (d : dtype) (ims ims' : list (list C)).
Hypothesis (HM0 : 0 < M0) (HN0 : 0 < N0) (Hi : imgs_ok pre M0 N0 ims) (Hi' : imgs_ok pre M N ims').
Hypothesis (Hpad : c_pad s (of_imgs d [prod pre] M0 N0 ims) = Ok (of_imgs Real [prod pre] M N ims')).
Hypothesis (Hcheck : check2 be s (of_imgs d pre M0 N0 ims) = Ok tt).
Definition outs : list (path2 (nd C)) := all_paths cops J (c_phi s) (c_psi s) M N pre ims' (a_max_order p).

Lemma Hi1 : imgs_ok [prod pre] M N ims'.
Proof. unfold imgs_ok in *. destruct Hi' as [A B]. split; [|exact B]. rewrite A. cbn. lia. Qed.
Lemma paths_flat : paths2 be J (c_phi s) (c_psi s) (c_pad s) (a_max_order p) (of_imgs d [prod pre] M0 N0 ims) =
  Ok (all_paths cops J (c_phi s) (c_psi s) M N [prod pre] ims' (a_max_order p)).
Proof.
  destruct Hbe as [E _]. rewrite E. apply (paths_rows cops complex_ops_ok J _ _ M N Hr (prod pre) ims' Hi1). exact Hpad.
Qed.
Lemma input_flat : b2_reshape_infer be [M0; N0] (of_imgs d pre M0 N0 ims) = Ok (of_imgs d [prod pre] M0 N0 ims).
Proof.
  destruct Hbe as (_ & _ & _ & E & _). rewrite E. unfold reshape_infer, of_imgs. cbn [nd_shape nd_dtype nd_data]. rewrite prod2. cbn [prod fold_right].
  rewrite Nat.mul_1_r. destruct (Nat.eqb_spec (M0 * N0) 0); [nia|]. rewrite Nat.mod_mul by lia. cbn [Nat.eqb]. now rewrite Nat.div_mul by lia.
Qed.
Lemma batch_signal_app : batch_signal (pre ++ [M0; N0]) = (pre, [M0; N0]).
Proof.
  unfold batch_signal. rewrite app_length. cbn [List.length]. replace (List.length pre + 2 - 2) with (List.length pre) by lia.
  rewrite firstn_app, skipn_app, firstn_all, skipn_all, Nat.sub_diag. cbn. now rewrite app_nil_r.
Qed.
Lemma all_paths_pre pre' : all_paths cops J (c_phi s) (c_psi s) M N pre' ims' (a_max_order p) =
  map (fun q => mk_path2 (mk_nd (nd_dtype (r_coef q)) (pre' ++ [m; n]) (nd_data (r_coef q))) (r_j q) (r_n q) (r_theta q)) outs.
Proof.
  unfold outs, all_paths. cbn [map]. f_equal. rewrite map_app, map_map. f_equal. destruct (a_max_order p <? 2)%Z; [reflexivity|].
  rewrite !flat_map_concat_map, concat_map, map_map. f_equal. apply map_ext. intros np. rewrite map_map. reflexivity.
Qed.
Lemma scattering2_list : a_out_type p = "list"%string -> scattering2 be s (of_imgs d pre M0 N0 ims) = Ok (List2 outs).
Proof.
  intros Ho. unfold scattering2. rewrite Hcheck. cbn [bind]. pose proof Hbe as (_ & Es & Er & _ & _). rewrite Es.
  change (nd_shape (of_imgs d pre M0 N0 ims)) with (pre ++ [M0; N0]). rewrite batch_signal_app, input_flat. cbn [bind].
  unfold scattering2d. rewrite paths_flat. cbn [bind]. rewrite Ho. cbn [String.eqb Ascii.eqb Bool.eqb bind restore2].
  rewrite all_paths_pre. set (g := fun q => _). assert (Hne : exists q r, outs = q :: r) by (unfold outs, all_paths; eauto).
  destruct Hne as (q & r & E). assert (P : py_index (map g outs) 0 = Ok (g q)) by (rewrite E, py_index_0; reflexivity). rewrite P. cbn [bind].
  rewrite Es. cbn [r_coef g nd_shape app]. change (trailing 2 [prod pre; m; n]) with [m; n].
  match goal with |- bind (mapM ?F _) _ = _ => assert (EM : mapM F (map g outs) = Ok outs) end; [|rewrite EM; reflexivity].
  rewrite mapM_map. transitivity (mapM (fun q => Ok q) outs); [|rewrite mapM_Ok; now rewrite map_id].
  apply mapM_ext. intros a Ha. rewrite Er. unfold reshape. cbn [g r_coef nd_shape nd_dtype nd_data r_j r_n r_theta].
  rewrite !prod2. cbn [prod fold_right app]. rewrite Nat.mul_1_r, Nat.eqb_refl. cbn [bind].
  destruct (all_paths_ok cops J _ _ M N Hr pre ims' (a_max_order p) a Hi' Ha) as (F & _ & EF). destruct a as [c aj an at_]. cbn in *. subst c. reflexivity.
Qed.
Lemma outs_ne : outs <> [].
Proof. unfold outs, all_paths. discriminate. Qed.
Lemma scattering2_array : a_out_type p = "array"%string -> exists y, scattering2 be s (of_imgs d pre M0 N0 ims) = Ok (Array2 y) /\
  nd_dtype y = Real /\ nd_wf y /\ nd_shape y = pre ++ [List.length outs; m; n] /\
  forall b k q, b < prod pre -> nth_error outs k = Some q -> block (m * n) (b * List.length outs + k) y = block (m * n) b (r_coef q).
Proof.
  intros Ho. unfold scattering2. rewrite Hcheck. cbn [bind]. pose proof Hbe as (_ & Es & Er & _ & Est). rewrite Es.
  change (nd_shape (of_imgs d pre M0 N0 ims)) with (pre ++ [M0; N0]). rewrite batch_signal_app, input_flat. cbn [bind].
  unfold scattering2d. rewrite paths_flat. cbn [bind]. rewrite Ho. cbn [String.eqb Ascii.eqb Bool.eqb bind].
  rewrite all_paths_pre, map_map. cbn [r_coef]. set (l := map _ outs).
  assert (Hl : forall x, In x l -> nd_dtype x = Real /\ nd_wf x /\ nd_shape x = [prod pre; m; n]).
  { intros x Hx. apply in_map_iff in Hx as (q & <- & Hq).
    destruct (all_paths_ok cops J _ _ M N Hr pre ims' (a_max_order p) q Hi' Hq) as (F & HF & EF). rewrite EF. split; [reflexivity|]. split; [|reflexivity].
    apply (of_imgs_wf Real [prod pre] m n). apply (imgs_ok_map _ M N); [exact HF|exact Hi1]. }
  assert (Hne : l <> []) by (unfold l, outs, all_paths; discriminate).
  rewrite (Est l (prod pre) m n) by first [exact Hne|intros x Hx; apply Hl, Hx].
  destruct (stack_at_blocks l [prod pre] [m; n] Hne) as (y & E & Wy & Sy & By); [intros x Hx; apply Hl, Hx|].
  cbn [List.length] in E. rewrite E. cbn [bind restore2]. rewrite Es, Sy.
  assert (Dy : nd_dtype y = Real).
  { unfold stack_at in E. destruct l as [|x l']; [congruence|]. destruct (Hl x (or_introl eq_refl)) as [Dx _].
    destruct (Nat.ltb _ _); [discriminate|]. destruct (forallb _ _); [|discriminate]. injection E as <-. exact Dx. }
  change (trailing 3 ([prod pre] ++ List.length l :: [m; n])) with [List.length l; m; n].
  assert (EL : List.length l = List.length outs) by apply map_length. rewrite EL in *. rewrite Er.
  assert (EP : prod (pre ++ [List.length outs; m; n]) = prod (nd_shape y)).
  { rewrite Sy, prod_app. cbn [prod fold_right app]. fold (prod pre). lia. }
  unfold reshape. rewrite EP, Nat.eqb_refl. cbn [bind]. eexists. split; [reflexivity|]. cbn [nd_dtype nd_shape nd_data]. split; [exact Dy|].
  split; [unfold nd_wf in *; cbn [nd_data nd_shape]; rewrite EP; exact Wy|]. split; [reflexivity|].
  intros b k q Hb Hk. assert (HkL : k < List.length outs) by (apply nth_error_Some; congruence).
  cbn [prod fold_right] in By. rewrite !Nat.mul_1_r in By. specialize (By b k Hb HkL (nth k l y)).
  unfold block in *. cbn [nd_data]. rewrite By. f_equal. f_equal.
  unfold l at 1. rewrite (nth_map_any _ _ _ _ q) by exact HkL. rewrite (nth_error_nth _ _ _ Hk). reflexivity.
Qed.
End Run.

(** ** Constructing an object *)
Definition accepted2 (p : params2) : Prop := (1 <= a_J p /\ 2 ^ a_J p <= a_M p /\ 2 ^ a_J p <= a_N p)%Z.
Definition Mp (p : params2) : nat := Z.to_nat (padded_size (a_M p) (a_J p)).
Definition Np (p : params2) : nat := Z.to_nat (padded_size (a_N p) (a_J p)).
Definition bank2 (p : params2) := filter_bank (Mp p) (Np p) (a_J p) (a_L p).
Definition object2 (p : params2) (pad : nd C -> res (nd C)) : scat2 (nd C) (nd C) :=
  mk_scat2 p (padded_size (a_M p) (a_J p)) (padded_size (a_N p) (a_J p)) pad (fst (bank2 p)) (snd (bank2 p)).
Definition pads2 (p : params2) := pad_sizes (a_M p) (a_N p) (padded_size (a_M p) (a_J p)) (padded_size (a_N p) (a_J p)).
Lemma new2_eval be f p : (0 <= a_J p)%Z -> (2 ^ a_J p <= a_M p)%Z -> (2 ^ a_J p <= a_N p)%Z ->
  new2 be f p = Ok (object2 p (if a_pre_pad p then f else b2_Pad be (pads2 p) (a_M p, a_N p))).
Proof.
  intros HJ HM HN. unfold new2, compute_padding. destruct (Z.ltb_spec (a_J p) 0); [lia|].
  destruct (Z.ltb_spec (a_M p) (2 ^ a_J p)); [lia|]. destruct (Z.ltb_spec (a_N p) (2 ^ a_J p)); [lia|]. cbn [orb]. reflexivity.
Qed.
Lemma padded_nat M J : (0 <= J)%Z -> (2 ^ J <= M)%Z -> Z.to_nat (padded_size M J) = (Z.to_nat (M / 2 ^ J) + 2) * p2 J.
Proof.
  intros HJ HM. rewrite (proj1 (padded_total M J HJ)). pose proof (Zpow_p2 J HJ). assert (0 < 2 ^ J)%Z by (apply Z.pow_pos_nonneg; lia).
  assert (0 <= M / 2 ^ J)%Z by (apply Z.div_pos; lia). rewrite Z2Nat.inj_mul, Z2Nat.inj_add by lia. f_equal. lia.
Qed.
Lemma size_out M J : (0 <= J)%Z -> (2 ^ J <= M)%Z -> Z.to_nat (padded_size M J) / p2 J - 2 = Z.to_nat (M / 2 ^ J).
Proof. intros HJ HM. rewrite padded_nat by assumption. rewrite Nat.div_mul by (pose proof (p2_pos J); lia). lia. Qed.
Lemma bank2_ready p : accepted2 p -> ready2 (a_J p) (fst (bank2 p)) (snd (bank2 p)) (Mp p) (Np p).
Proof.
  intros (HJ & HM & HN). pose proof (p2_pos (a_J p)).
  apply filter_bank_ready; unfold Mp, Np; rewrite ?padded_nat by lia; first [assumption|nia|eexists; reflexivity].
Qed.

(** ** Results on a batch of images *)
Section Results.
Variables (p : params2).
Hypothesis (Hp : accepted2 p) (Ho : a_out_type p = "array"%string \/ a_out_type p = "list"%string).
Notation J := (a_J p).
Notation M := (Z.to_nat (a_M p)).
Notation N := (Z.to_nat (a_N p)).
Notation tp := (Z.to_nat (left_pad (a_M p) J)).
Notation bp := (Z.to_nat (right_pad (a_M p) J)).
Notation lp := (Z.to_nat (left_pad (a_N p) J)).
Notation rp := (Z.to_nat (right_pad (a_N p) J)).
(** The padded image. *)
Definition padim (im : list C) : list C := pad_img cops M N tp bp lp rp im.
Definition outs2 (pre : list nat) (padded : list (list C)) : list (path2 (nd C)) :=
  all_paths cops J (fst (bank2 p)) (snd (bank2 p)) (Mp p) (Np p) pre padded (a_max_order p).
Definition m2 : nat := Z.to_nat (a_M p / 2 ^ J).
Definition n2 : nat := Z.to_nat (a_N p / 2 ^ J).
Lemma sizes2 : Mp p / p2 J - 2 = m2 /\ Np p / p2 J - 2 = n2.
Proof. destruct Hp as (HJ & HM & HN). unfold Mp, Np, m2, n2. rewrite !size_out by lia. auto. Qed.
Lemma pos2 : 2 <= M /\ 2 <= N.
Proof. destruct Hp as (HJ & HM & HN). assert (2 ^ 1 <= 2 ^ J)%Z by (apply Z.pow_le_mono_r; lia). lia. Qed.
Lemma pads2_nat : pads2 p = (Z.of_nat tp, Z.of_nat bp, Z.of_nat lp, Z.of_nat rp) /\ tp + M + bp = Mp p /\ lp + N + rp = Np p.
Proof.
  destruct Hp as (HJ & HM & HN). assert (H : (0 < 2 ^ J)%Z) by (apply Z.pow_pos_nonneg; lia).
  pose proof (left_right (a_M p) J ltac:(lia)) as A. pose proof (left_right (a_N p) J ltac:(lia)) as B.
  unfold pads2, pad_sizes, Mp, Np. fold (left_pad (a_M p) J) (right_pad (a_M p) J) (left_pad (a_N p) J) (right_pad (a_N p) J).
  rewrite !Z2Nat.id by lia. split; [reflexivity|]. lia.
Qed.
Lemma check_ok be pad pre d ims : usual2 be -> check2 be (object2 p pad)
   (of_imgs d pre (if a_pre_pad p then Mp p else M) (if a_pre_pad p then Np p else N) ims) = Ok tt.
Proof.
  intros (_ & Es & _). unfold check2. rewrite Es. cbn [of_imgs nd_shape]. rewrite split_last2_app. cbn [bind]. cbn [c_args object2 c_N_padded c_M_padded].
  pose proof pos2. destruct Hp as (HJ & HM & HN). pose proof (left_right (a_M p) J ltac:(lia)). pose proof (left_right (a_N p) J ltac:(lia)).
  assert (Eo : (String.eqb (a_out_type p) "array" || String.eqb (a_out_type p) "list")%bool = true) by (destruct Ho as [-> | ->]; reflexivity).
  rewrite Eo. destruct (a_pre_pad p); unfold Mp, Np; rewrite !Z2Nat.id by lia; rewrite !Z.eqb_refl; cbn; now rewrite ?andb_false_r.
Qed.

(** The padding functions on a batch. *)
Definition pads_to (pad : nd C -> res (nd C)) (pre : list nat) (ims : list (list C)) : Prop :=
  pad (of_imgs Real [prod pre] M N ims) = Ok (of_imgs Real [prod pre] (Mp p) (Np p) (map padim ims)).
Lemma flat_ok pre M N (ims : list (list C)) : imgs_ok pre M N ims -> imgs_ok [prod pre] M N ims.
Proof. intros [A B]. split; [rewrite A; cbn; lia|exact B]. Qed.
Lemma pads_numpy pre ims : imgs_ok pre M N ims -> pads_to (np2_pad cops (pads2 p) (a_M p, a_N p)) pre ims.
Proof.
  intros Hi. pose proof pos2. destruct pads2_nat as (E & EM & EN). unfold pads_to. rewrite E, np2_pad_of by first [apply flat_ok, Hi|lia].
  rewrite EM, EN. reflexivity.
Qed.
Lemma pads_tf pre ims : imgs_ok pre M N ims -> pads_to (tf2_pad cops (pads2 p) (a_M p, a_N p)) pre ims.
Proof.
  intros Hi. pose proof pos2. destruct pads2_nat as (E & EM & EN). unfold pads_to, tf2_pad. rewrite E.
  replace (a_M p, a_N p) with (Z.of_nat M, Z.of_nat N) by (f_equal; lia). destruct Hp as (HJ & HM & HN).
  rewrite special_pad_of by first [apply flat_ok, Hi|lia|apply pad_ok_frontend; lia]. rewrite EM, EN. reflexivity.
Qed.
Lemma padim_ok pre ims : imgs_ok pre M N ims -> imgs_ok pre (Mp p) (Np p) (map padim ims).
Proof. intros Hi. apply (imgs_ok_map _ M N); [|exact Hi]. intros im _. unfold padim, pad_img. rewrite img_length. destruct pads2_nat as (_ & -> & ->). reflexivity. Qed.
End Results.

(** ** Runs *)
Section Runs.
Variables (p : params2) (pre : list nat) (ims : list (list C)).
Notation M := (Z.to_nat (a_M p)).
Notation N := (Z.to_nat (a_N p)).
Notation J := (a_J p).
Hypothesis (Hp : accepted2 p).
Definition npobj : scat2 (nd C) (nd C) := object2 p (if a_pre_pad p then fun x => Ok x else np2_pad cops (pads2 p) (a_M p, a_N p)).
Definition tfobj : scat2 (nd C) (nd C) := object2 p (if a_pre_pad p then tf_cast else tf2_pad cops (pads2 p) (a_M p, a_N p)).
Lemma numpy_new s : ScatteringNumPy2D p = Ok s -> s = npobj.
Proof. destruct Hp as (HJ & HM & HN). unfold ScatteringNumPy2D. rewrite new2_eval by lia. intros E. injection E as <-. reflexivity. Qed.
Lemma tf_new s : ScatteringTensorFlow2D p = Ok s -> s = tfobj.
Proof. destruct Hp as (HJ & HM & HN). unfold ScatteringTensorFlow2D. rewrite new2_eval by lia. intros E. injection E as <-. reflexivity. Qed.
(** The padded images of the batch. *)
Definition padded_ims : list (list C) := if a_pre_pad p then ims else map (padim p) ims.
Definition M_in : nat := if a_pre_pad p then Mp p else M.
Definition N_in : nat := if a_pre_pad p then Np p else N.
Hypothesis (Hi : imgs_ok pre M_in N_in ims).
Lemma in_pos : 0 < M_in /\ 0 < N_in.
Proof.
  unfold M_in, N_in. pose proof (pos2 p Hp). destruct Hp as (HJ & HM & HN). pose proof (left_right (a_M p) J ltac:(lia)). pose proof (left_right (a_N p) J ltac:(lia)).
  assert (0 < 2 ^ J)%Z by (apply Z.pow_pos_nonneg; lia). unfold Mp, Np. destruct (a_pre_pad p); lia.
Qed.
Lemma padded_ok : imgs_ok pre (Mp p) (Np p) padded_ims.
Proof. unfold padded_ims, M_in, N_in in *. destruct (a_pre_pad p); [exact Hi|now apply padim_ok]. Qed.
Lemma numpy_pad : c_pad npobj (of_imgs Real [prod pre] M_in N_in ims) = Ok (of_imgs Real [prod pre] (Mp p) (Np p) padded_ims).
Proof. unfold npobj, padded_ims, M_in, N_in in *. cbn [c_pad object2]. destruct (a_pre_pad p); [reflexivity|]. now apply (pads_numpy p Hp). Qed.
Lemma tf_pad : a_pre_pad p = false -> c_pad tfobj (of_imgs Real [prod pre] M_in N_in ims) = Ok (of_imgs Real [prod pre] (Mp p) (Np p) padded_ims).
Proof. intros E. unfold tfobj, padded_ims, M_in, N_in in *. cbn [c_pad object2]. rewrite E in *. now apply (pads_tf p Hp). Qed.
Notation result := (outs2 p pre padded_ims).
Lemma numpy_list : a_out_type p = "list"%string -> scattering2 (numpy_backend2 cops) npobj (of_imgs Real pre M_in N_in ims) = Ok (List2 result).
Proof.
  intros Ho. apply (scattering2_list _ npobj usual2_numpy (Mp p) (Np p) (bank2_ready p Hp)); try apply in_pos; [apply padded_ok|apply numpy_pad| |exact Ho].
  apply (check_ok p Hp (or_intror Ho) _ _ pre Real ims usual2_numpy).
Qed.
Lemma tf_list : a_pre_pad p = false -> a_out_type p = "list"%string -> scattering2 (tf_backend2 cops) tfobj (of_imgs Real pre M_in N_in ims) = Ok (List2 result).
Proof.
  intros Hpp Ho. apply (scattering2_list _ tfobj usual2_tf (Mp p) (Np p) (bank2_ready p Hp)); try apply in_pos; [apply padded_ok|now apply tf_pad| |exact Ho].
  apply (check_ok p Hp (or_intror Ho) _ _ pre Real ims usual2_tf).
Qed.
Definition stacked (y : nd C) : Prop := nd_dtype y = Real /\ nd_wf y /\ nd_shape y = pre ++ [List.length result; m2 p; n2 p] /\
  forall b k q, b < prod pre -> nth_error result k = Some q -> block (m2 p * n2 p) (b * List.length result + k) y = block (m2 p * n2 p) b (r_coef q).
Lemma numpy_array : a_out_type p = "array"%string -> exists y, scattering2 (numpy_backend2 cops) npobj (of_imgs Real pre M_in N_in ims) = Ok (Array2 y) /\ stacked y.
Proof.
  intros Ho. destruct (scattering2_array _ npobj usual2_numpy (Mp p) (Np p) (bank2_ready p Hp) M_in N_in pre Real ims padded_ims) as (y & E & H);
    try apply in_pos; [apply padded_ok|apply numpy_pad|apply (check_ok p Hp (or_introl Ho) _ _ pre Real ims usual2_numpy)|exact Ho|].
  exists y. split; [exact E|]. unfold stacked. destruct (sizes2 p Hp) as [<- <-]. exact H.
Qed.
Lemma tf_array : a_pre_pad p = false -> a_out_type p = "array"%string -> exists y, scattering2 (tf_backend2 cops) tfobj (of_imgs Real pre M_in N_in ims) = Ok (Array2 y) /\ stacked y.
Proof.
  intros Hpp Ho. destruct (scattering2_array _ tfobj usual2_tf (Mp p) (Np p) (bank2_ready p Hp) M_in N_in pre Real ims padded_ims) as (y & E & H);
    try apply in_pos; [apply padded_ok|now apply tf_pad|apply (check_ok p Hp (or_introl Ho) _ _ pre Real ims usual2_tf)|exact Ho|].
  exists y. split; [exact E|]. unfold stacked. destruct (sizes2 p Hp) as [<- <-]. exact H.
Qed.
(** The arrays of the paths. *)
Lemma result_ok q : In q result -> exists F, (forall im, List.length im = Mp p * Np p -> List.length (F im) = m2 p * n2 p) /\ r_coef q = of_imgs Real pre (m2 p) (n2 p) (map F padded_ims).
Proof.
  intros Hq. destruct (all_paths_ok cops J _ _ (Mp p) (Np p) (bank2_ready p Hp) pre padded_ims (a_max_order p) q padded_ok Hq) as (F & HF & E).
  destruct (sizes2 p Hp) as [<- <-]. exists F. split; assumption.
Qed.
End Runs.
