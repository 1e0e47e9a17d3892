(** Properties C46 and C65 to C72: values of the coefficients of Scattering2D. *)
From Coq Require Import String Reals ZArith List Bool Arith Lia Lra.
From Coquelicot Require Import Coquelicot.
From Verif Require Import Base BaseProofs NdArray Backend NdProofs ComplexOps Dft Construct1d Utils1dProofs Rows1d StackProofs Backend2d Core2d FilterBank2d
  Frontend2d Images Rows2d Pad2d Eval2d Dft2 Value2d Conv2d Keys2d Path2d PropShapes2d.
Import ListNotations.
Local Open Scope Z_scope.

(** ** C46 *)
Theorem C46_subsample_is_decimation : forall B M N k (x : nd C), (0 < k)%nat -> (0 < M)%nat -> (0 < N)%nat -> Nat.divide k M -> Nat.divide k N ->
  nd_wf x -> nd_dtype x = Complex -> nd_shape x = [B; M; N] ->
  exists y w v, np2_subsample complex_ops x (PInt (Z.of_nat k)) = Ok y /\ np2_ifft complex_ops y = Ok w /\ np2_ifft complex_ops x = Ok v /\
    nd_shape w = [B; (M / k)%nat; (N / k)%nat] /\
    forall b i j, (b < B)%nat -> (i < M / k)%nat -> (j < N / k)%nat ->
      px (N / k) (block (M / k * (N / k)) b w) i j = px N (block (M * N) b v) (k * i) (k * j).
Proof.
  intros B M N k x Hk HM HN DM DN Hw Hd Hs. destruct (of_imgs_intro x [B] M N Hw Hs) as (ims & E & Hi). rewrite Hd in E. subst x.
  assert (Pm : (0 < M / k)%nat) by (apply Nat.div_str_pos; split; [exact Hk|now apply Nat.divide_pos_le]). assert (Pn : (0 < N / k)%nat) by (apply Nat.div_str_pos; split; [exact Hk|now apply Nat.divide_pos_le]).
  assert (Hf : imgs_ok [B] (M / k) (N / k) (map (fold_img cops M N k) ims)) by (apply (imgs_ok_map _ M N); [intros; apply img_length|exact Hi]).
  eexists _, _, _. split; [apply np2_subsample_of; assumption|]. split; [apply np2_ifft_of; assumption|]. split; [apply np2_ifft_of; assumption|]. split; [reflexivity|].
  intros b i j Hb Hi' Hj. cbn [o_ifft complex_ops].
  assert (Hpb : (b < prod [B])%nat) by (cbn; lia). pose proof Hi as [HB HF]. cbn in HB. rewrite Nat.mul_1_r in HB.
  rewrite !block_of_imgs; try exact Hpb.
  2:{ apply (imgs_ok_map _ M N); [|exact Hi]. intros im Him. apply (sep2_length cops); [apply idft_length|exact Him]. }
  2:{ apply (imgs_ok_map _ (M / k) (N / k)); [|exact Hf]. intros im Him. apply (sep2_length cops); [apply idft_length|exact Him]. }
  rewrite map_map. rewrite !(nth_map_any _ _ _ _ []) by lia. set (im := nth b ims []).
  assert (Him : List.length im = (M * N)%nat) by (rewrite Forall_forall in HF; apply HF, nth_In; lia).
  destruct DM as [m Em]. destruct DN as [n En]. assert (Dm : (M / k = m)%nat) by (rewrite Em; apply Nat.div_mul; lia). assert (Dn : (N / k = n)%nat) by (rewrite En; apply Nat.div_mul; lia).
  rewrite px_idft2; [|apply img_length|assumption|assumption]. rewrite px_idft2; [|exact Him|nia|nia].
  rewrite Dm, Dn in *. rewrite Nat.mul_comm in Em, En. rewrite !Nat2Z.inj_mul.
  pose proof (subsample_idft2 k m n (px N im) (Z.of_nat i) (Z.of_nat j) Hk Pm Pn) as ES. rewrite <- Em, <- En in ES. rewrite <- ES.
  apply idft2_at_ext. intros a c Ha Hc. pose proof (px_fold M N k im a c Hk) as EF. rewrite Dm, Dn in EF. apply EF; try assumption; [exists m; lia|exists n; lia].
Qed.
Print Assumptions C46_subsample_is_decimation.
Example C46_subsample_instance : forall x, nd_wf x -> nd_dtype x = Complex -> nd_shape x = [1; 4; 6]%nat ->
  exists y w v, np2_subsample complex_ops x (PInt 2) = Ok y /\ np2_ifft complex_ops y = Ok w /\ np2_ifft complex_ops x = Ok v /\
    nth 5 (nd_data w) (RtoC 0) = nth 16 (nd_data v) (RtoC 0).
Proof.
  intros x Hw Hd Hs. destruct (C46_subsample_is_decimation 1 4 6 2 x) as (y & w & v & E1 & E2 & E3 & Sh & H); try lia; try assumption; try (exists 2%nat; reflexivity); try (exists 3%nat; reflexivity).
  exists y, w, v. split; [exact E1|]. split; [exact E2|]. split; [exact E3|]. specialize (H 0%nat 1%nat 2%nat ltac:(lia) ltac:(cbn; lia) ltac:(cbn; lia)).
  assert (N1 : forall (l : list C) i n, (i < n)%nat -> nth i (firstn n l) (RtoC 0) = nth i l (RtoC 0)).
  { intros l. induction l as [|a l IH]; intros i n Hi; [now rewrite firstn_nil|]. destruct n; [lia|]. destruct i; [reflexivity|]. cbn [firstn nth]. apply IH. lia. }
  change (nth 5 (firstn 6 (nd_data w)) (RtoC 0) = nth 16 (firstn 24 (nd_data v)) (RtoC 0)) in H. rewrite (N1 (nd_data w) 5%nat 6%nat), (N1 (nd_data v) 16%nat 24%nat) in H by lia. exact H.
Qed.
Theorem C46_periodize_keeps_one_copy : forall M N r (x : list C) k l, (0 < M)%nat -> (0 < N)%nat -> Nat.divide (2 ^ (r + 1)) M -> Nat.divide (2 ^ (r + 1)) N ->
  let m := (M / 2 ^ r)%nat in let n := (N / 2 ^ r)%nat in (k < m)%nat -> (l < n)%nat ->
  (* frequencies below m/2 are read where they are, the others (negative frequencies) at the end of the axis *)
  let up (A a i : nat) := if Nat.ltb i (a / 2) then i else (A - (a - i))%nat in
  px n (periodize2 complex_ops M N x r) k l = px N x (up M m k) (up N n l).
Proof.
  intros M N r x k l HM HN DM DN m n Hk Hl up. unfold m, n in *. rewrite periodize2_restrict by assumption. unfold restrict2. rewrite px_img by assumption.
  unfold up, band. assert (H2 : (2 ^ r <> 0)%nat) by (apply Nat.pow_nonzero; lia). pose proof (Nat.div_le_upper_bound M (2 ^ r) M H2). pose proof (Nat.div_le_upper_bound N (2 ^ r) N H2).
  f_equal; [destruct (Nat.ltb_spec k (M / 2 ^ r / 2))|destruct (Nat.ltb_spec l (N / 2 ^ r / 2))]; nia.
Qed.
Print Assumptions C46_periodize_keeps_one_copy.
Example C46_instance : forall x : list C, px 2 (periodize2 complex_ops 8 4 x 1) 3 1 = px 4 x 7 3 /\ px 2 (periodize2 complex_ops 8 4 x 1) 1 0 = px 4 x 1 0.
Proof.
  intros x. assert (D8 : Nat.divide (2 ^ (1 + 1)) 8) by (exists 2%nat; reflexivity). assert (D4 : Nat.divide (2 ^ (1 + 1)) 4) by (exists 1%nat; reflexivity). split.
  - exact (C46_periodize_keeps_one_copy 8 4 1 x 3 1 ltac:(lia) ltac:(lia) D8 D4 ltac:(cbn; lia) ltac:(cbn; lia)).
  - exact (C46_periodize_keeps_one_copy 8 4 1 x 1 0 ltac:(lia) ltac:(lia) D8 D4 ltac:(cbn; lia) ltac:(cbn; lia)).
Qed.

(** ** Inputs and results *)
Section Inputs.
Variable (p : params2).
Definition padded_M : nat := Z.to_nat (((a_M p + 2 ^ a_J p) / 2 ^ a_J p + 1) * 2 ^ a_J p).
Definition padded_N : nat := Z.to_nat (((a_N p + 2 ^ a_J p) / 2 ^ a_J p + 1) * 2 ^ a_J p).
Definition in_M : nat := if a_pre_pad p then padded_M else Z.to_nat (a_M p).
Definition in_N : nat := if a_pre_pad p then padded_N else Z.to_nat (a_N p).
(** A batch of images of the size that the object expects. *)
Definition batch2 (pre : list nat) (x : nd C) : Prop := nd_wf x /\ nd_dtype x = Real /\ nd_shape x = pre ++ [in_M; in_N].
(** The image that is transformed: extended by reflection, unless it is already padded. *)
Definition padded (im : list C) : list C :=
  if a_pre_pad p then im else
  img padded_M padded_N (fun u v => px (Z.to_nat (a_N p)) im
    (reflect (Z.to_nat (a_M p)) (Z.of_nat u - (Z.of_nat padded_M - a_M p) / 2))
    (reflect (Z.to_nat (a_N p)) (Z.of_nat v - (Z.of_nat padded_N - a_N p) / 2))).
Definition out_M : nat := Z.to_nat (a_M p / 2 ^ a_J p).
Definition out_N : nat := Z.to_nat (a_N p / 2 ^ a_J p).
(** Image number [b] of the input, and of an output coefficient. *)
Definition image (b : nat) (x : nd C) : list C := block (in_M * in_N) b x.
Definition coef (b : nat) (q : path2 (nd C)) : list C := block (out_M * out_N) b (r_coef q).
Definition valid2 : Prop := 1 <= a_J p /\ 2 ^ a_J p <= a_M p /\ 2 ^ a_J p <= a_N p.

Lemma padded_is im : valid2 -> padded im = if a_pre_pad p then im else padim p im.
Proof.
  intros Hp. unfold padded. destruct (a_pre_pad p); [reflexivity|]. unfold padim, pad_img. destruct (pads2_nat p Hp) as (_ & E1 & E2). rewrite E1, E2.
  destruct Hp as (HJ & HM & HN). pose proof (left_right (a_M p) (a_J p) ltac:(lia)) as (L1 & L2 & L3 & _). pose proof (left_right (a_N p) (a_J p) ltac:(lia)) as (R1 & R2 & R3 & _).
  assert (0 < 2 ^ a_J p) by (apply Z.pow_pos_nonneg; lia).
  change padded_M with (Mp p). change padded_N with (Np p). apply img_ext. intros u v Hu Hv. unfold px. unfold Mp, Np.
  rewrite !Z2Nat.id by lia. unfold left_pad. reflexivity.
Qed.
Lemma dims2 : valid2 -> (0 < Mp p)%nat /\ (0 < Np p)%nat /\ Nat.divide (p2 (a_J p)) (Mp p) /\ Nat.divide (p2 (a_J p)) (Np p).
Proof. intros Hp. pose proof (bank2_ready p Hp) as R. repeat split; apply R. Qed.
Lemma padded_length im : valid2 -> List.length im = (in_M * in_N)%nat -> List.length (padded im) = (Mp p * Np p)%nat.
Proof. intros Hp H. unfold padded, in_M, in_N in *. destruct (a_pre_pad p); [exact H|]. rewrite img_length. reflexivity. Qed.
Lemma image_length pre b x : batch2 pre x -> (b < prod pre)%nat -> List.length (image b x) = (in_M * in_N)%nat.
Proof. intros (Hw & _ & Hs) Hb. unfold image. apply (block_length _ (prod pre)); [|exact Hb]. rewrite Hw, Hs, prod2. reflexivity. Qed.

(** What a call returns. *)
Lemma paths_of pre x : valid2 -> batch2 pre x -> exists ims, x = of_imgs Real pre (M_in p) (N_in p) ims /\ imgs_ok pre (M_in p) (N_in p) ims /\
  (let ps := outs2 p pre (padded_ims p ims) in
   map key2 ps = map (key_of (Z.to_nat (a_L p))) (indices2 (Z.to_nat (a_J p)) (Z.to_nat (a_L p)) (a_max_order p)) /\
   forall q, In q ps -> label2 (a_J p) (a_L p) (r_j q) (r_theta q) /\ nd_dtype (r_coef q) = Real /\ nd_shape (r_coef q) = pre ++ [out_M; out_N] /\ nd_wf (r_coef q) /\
     forall b, (b < prod pre)%nat -> coef b q = value2 padded_M padded_N (a_J p) (a_L p) (r_j q) (r_theta q) (padded (image b x))).
Proof.
  intros Hp (Hw & Hd & Hs). destruct (of_imgs_intro x pre in_M in_N Hw Hs) as (ims & E & Hi). rewrite Hd in E. exists ims. split; [exact E|]. split; [exact Hi|]. cbv zeta.
  split; [apply (keys_paths cops)|]. intros q Hq. destruct (dims2 Hp) as (P1 & P2 & D1 & D2).
  pose proof (padded_ok p pre ims Hp Hi) as Hpi. destruct (path_value (Mp p) (Np p) (a_J p) (a_L p) (proj1 Hp) P1 P2 D1 D2 pre _ _ q Hpi Hq) as (Hl & Ec).
  destruct (sizes2 p Hp) as [S1 S2]. rewrite S1, S2 in Ec. split; [exact Hl|]. rewrite Ec. split; [reflexivity|]. split; [reflexivity|].
  assert (HV : forall im, List.length im = (Mp p * Np p)%nat -> List.length (value2 (Mp p) (Np p) (a_J p) (a_L p) (r_j q) (r_theta q) im) = (m2 p * n2 p)%nat).
  { intros im _. rewrite value2_length by assumption. now rewrite S1, S2. }
  split; [apply of_imgs_wf, (imgs_ok_map _ (Mp p) (Np p)); assumption|].
  intros b Hb. unfold coef. rewrite Ec. change (out_M * out_N)%nat with (m2 p * n2 p)%nat.
  rewrite (block_map Real Real pre (Mp p) (Np p) (m2 p) (n2 p) _ _ b Hpi HV Hb). f_equal. rewrite (block_of_imgs Real pre (Mp p) (Np p) _ b Hpi Hb).
  rewrite padded_is by exact Hp. unfold image. rewrite E. rewrite (block_of_imgs Real pre in_M in_N ims b Hi Hb). unfold padded_ims.
  destruct (a_pre_pad p); [reflexivity|]. apply nth_map_any. destruct Hi as [HB _]. now rewrite HB.
Qed.
End Inputs.

(** ** C65 *)
Theorem C65_values : forall p s pre x, 1 <= a_J p -> 2 ^ a_J p <= a_M p -> 2 ^ a_J p <= a_N p -> a_out_type p = "list"%string ->
  ScatteringNumPy2D p = Ok s -> batch2 p pre x ->
  exists ps, scattering2 np2 s x = Ok (List2 ps) /\ forall q, In q ps -> nd_dtype (r_coef q) = Real /\
    forall b, (b < prod pre)%nat ->
      coef p b q = value2 (padded_M p) (padded_N p) (a_J p) (a_L p) (r_j q) (r_theta q) (padded p (image p b x)).
Proof.
  intros p s pre x HJ HM HN Ho Hs Hx. assert (Hp : valid2 p) by (split; [|split]; assumption). apply (numpy_new p Hp) in Hs. subst s.
  destruct (paths_of p pre x Hp Hx) as (ims & -> & Hi & _ & H). exists (outs2 p pre (padded_ims p ims)). split; [now apply numpy_list|].
  intros q Hq. destruct (H q Hq) as (_ & A & _ & _ & B). split; assumption.
Qed.
Print Assumptions C65_values.
(** A batch of two images of 2 x 3 pixels, J = 1, L = 1: the first-order coefficient of the second image. *)
Example C65_instance : forall x, nd_wf x -> nd_dtype x = Real -> nd_shape x = [2; 2; 3]%nat ->
  exists s ps, ScatteringNumPy2D (mk_params2 1 2 3 1 2 false "list") = Ok s /\ scattering2 np2 s x = Ok (List2 ps) /\
    forall q, In q ps -> r_j q = [0] -> r_theta q = [0] ->
      firstn 1 (skipn 1 (nd_data (r_coef q))) =
      S1_val 6 6 1 1 0 0 (padded (mk_params2 1 2 3 1 2 false "list") (firstn 6 (skipn 6 (nd_data x)))).
Proof.
  intros x Hw Hd Hs. set (p := mk_params2 1 2 3 1 2 false "list"). exists (npobj p).
  assert (Hn : ScatteringNumPy2D p = Ok (npobj p)) by (unfold ScatteringNumPy2D; rewrite new2_eval by (cbn; lia); reflexivity).
  destruct (C65_values p (npobj p) [2%nat] x) as (ps & E & H); try (cbn; lia); try reflexivity; try exact Hn; [repeat split; assumption|].
  exists ps. split; [exact Hn|]. split; [exact E|]. intros q Hq Ej Et. destruct (H q Hq) as [_ Hb]. specialize (Hb 1%nat ltac:(cbn; lia)). rewrite Ej, Et in Hb. exact Hb.
Qed.

(** ** C66 *)
(** The same transform without and with pre_pad, on an image and on the padded image. *)
Definition with_pre_pad (p : params2) (b : bool) : params2 := mk_params2 (a_J p) (a_M p) (a_N p) (a_L p) (a_max_order p) b (a_out_type p).
(** NumPy only; missing: TensorFlow and Keras (see the refutation). *)
Theorem C66_pre_pad_partial : forall p s s' B x x', 1 <= a_J p -> 2 ^ a_J p <= a_M p -> 2 ^ a_J p <= a_N p ->
  a_out_type p = "array"%string \/ a_out_type p = "list"%string ->
  ScatteringNumPy2D (with_pre_pad p false) = Ok s -> ScatteringNumPy2D (with_pre_pad p true) = Ok s' ->
  batch2 (with_pre_pad p false) [B] x ->
  np2_pad complex_ops (pad_sizes (a_M p) (a_N p) (c_M_padded s) (c_N_padded s)) (a_M p, a_N p) x = Ok x' ->
  scattering2 np2 s' x' = scattering2 np2 s x /\ exists out, scattering2 np2 s x = Ok out.
Proof.
  intros p s s' B x x' HJ HM HN Ho Hs Hs' Hx Hpad. set (p0 := with_pre_pad p false) in *. set (p1 := with_pre_pad p true) in *.
  assert (H0 : valid2 p0) by (split; [|split]; assumption). assert (H1 : valid2 p1) by (split; [|split]; assumption).
  apply (numpy_new p0 H0) in Hs. apply (numpy_new p1 H1) in Hs'. subst s s'.
  destruct Hx as (Hw & Hd & Hsh). destruct (of_imgs_intro x [B] _ _ Hw Hsh) as (ims & E & Hi). rewrite Hd in E. subst x.
  change (pad_sizes (a_M p) (a_N p) (c_M_padded (npobj p0)) (c_N_padded (npobj p0))) with (pads2 p0) in Hpad. change (a_M p, a_N p) with (a_M p0, a_N p0) in Hpad.
  pose proof (numpy_pad p0 [B] ims H0 Hi) as EP. change (M_in p0) with (in_M p0) in EP. change (N_in p0) with (in_N p0) in EP.
  replace (prod [B]) with B in EP by (cbn; lia). unfold npobj in EP. cbn [a_pre_pad p0 with_pre_pad c_pad object2] in EP. fold p0 in EP.
  assert (Ex : x' = of_imgs Real [B] (Mp p0) (Np p0) (padded_ims p0 ims)) by (rewrite EP in Hpad; congruence). subst x'.
  split.
  - unfold scattering2. pose proof (check_ok p0 H0 Ho np2 (c_pad (npobj p0)) [B] Real ims usual2_numpy) as C0. pose proof (check_ok p1 H1 Ho np2 (c_pad (npobj p1)) [B] Real (padded_ims p0 ims) usual2_numpy) as C1.
    cbn [a_pre_pad p0 p1 with_pre_pad] in C0, C1.
    change (check2 np2 (npobj p1) (of_imgs Real [B] (Mp p0) (Np p0) (padded_ims p0 ims)) = Ok tt) in C1.
    change (check2 np2 (npobj p0) (of_imgs Real [B] (in_M p0) (in_N p0) ims) = Ok tt) in C0. rewrite C0, C1. cbn [bind].
    pose proof (input_flat np2 usual2_numpy (in_M p0) (in_N p0) [B] Real ims) as F0. pose proof (input_flat np2 usual2_numpy (Mp p0) (Np p0) [B] Real (padded_ims p0 ims)) as F1.
    destruct (in_pos p0 H0) as [P1 P2]. destruct (dims2 p0 H0) as (P3 & P4 & _).
    replace (prod [B]) with B in F0, F1 by (cbn; lia).
    change (batch_signal (b2_shape np2 (of_imgs Real [B] (Mp p0) (Np p0) (padded_ims p0 ims)))) with ([B], [Mp p0; Np p0]).
    change (batch_signal (b2_shape np2 (of_imgs Real [B] (in_M p0) (in_N p0) ims))) with ([B], [in_M p0; in_N p0]).
    cbv iota beta zeta. rewrite F0, F1 by assumption. cbn [bind]. unfold scattering2d, paths2.
    change (c_pad (npobj p1)) with (fun y : nd C => Ok y). cbv beta. change (c_pad (npobj p0)) with (np2_pad cops (pads2 p0) (a_M p0, a_N p0)).
    cbn [bind]. rewrite EP. cbn [bind]. reflexivity.
  - destruct Ho as [Ho|Ho].
    + destruct (numpy_array p0 [B] ims H0 Hi Ho) as (y & Ey & _). eauto.
    + eexists. now apply (numpy_list p0 [B] ims H0 Hi).
Qed.
Print Assumptions C66_pre_pad_partial.
Example C66_instance : forall x, nd_wf x -> nd_dtype x = Real -> nd_shape x = [1; 4; 6]%nat ->
  exists s s' x', ScatteringNumPy2D (mk_params2 2 4 6 8 2 false "list") = Ok s /\ ScatteringNumPy2D (mk_params2 2 4 6 8 2 true "list") = Ok s' /\
    np2_pad complex_ops (4, 4, 3, 3) (4, 6) x = Ok x' /\ scattering2 np2 s' x' = scattering2 np2 s x.
Proof.
  intros x Hw Hd Hs. set (p := mk_params2 2 4 6 8 2 false "list"). exists (npobj p), (npobj (with_pre_pad p true)).
  assert (Hn : ScatteringNumPy2D p = Ok (npobj p)) by (unfold ScatteringNumPy2D; rewrite new2_eval by (cbn; lia); reflexivity).
  assert (Hn' : ScatteringNumPy2D (with_pre_pad p true) = Ok (npobj (with_pre_pad p true))) by (unfold ScatteringNumPy2D; rewrite new2_eval by (cbn; lia); reflexivity).
  assert (EP : exists x', np2_pad complex_ops (4, 4, 3, 3) (4, 6) x = Ok x') by (unfold np2_pad; rewrite Hs; cbn; eauto).
  destruct EP as [x' EP]. exists x'. split; [exact Hn|]. split; [exact Hn'|]. split; [exact EP|].
  apply (C66_pre_pad_partial p (npobj p) (npobj (with_pre_pad p true)) 1 x x'); try (cbn; lia); try assumption; [now right|repeat split; assumption].
Qed.
(** TensorFlow: with pre_pad=True, every call on an image of the padded size raises TypeError. *)
Theorem C66_tensorflow_refuted : forall p s pre x, 1 <= a_J p -> 2 ^ a_J p <= a_M p -> 2 ^ a_J p <= a_N p -> a_pre_pad p = true ->
  a_out_type p = "array"%string \/ a_out_type p = "list"%string ->
  ScatteringTensorFlow2D p = Ok s -> batch2 p pre x -> scattering2 tf2 s x = Err TypeError.
Proof.
  intros p s pre x HJ HM HN Hpp Ho Hs Hx. assert (Hp : valid2 p) by (split; [|split]; assumption). apply (tf_new p Hp) in Hs. subst s.
  destruct Hx as (Hw & Hd & Hsh). destruct (of_imgs_intro x pre _ _ Hw Hsh) as (ims & E & Hi). rewrite Hd in E. subst x.
  pose proof (check_ok p Hp Ho tf2 (c_pad (tfobj p)) pre Real ims usual2_tf) as C0. change (check2 tf2 (tfobj p) (of_imgs Real pre (in_M p) (in_N p) ims) = Ok tt) in C0.
  unfold scattering2. rewrite C0. cbn [bind]. cbn [b2_shape tf_backend2 of_imgs nd_shape]. rewrite batch_signal_app.
  destruct (in_pos p Hp) as [P1 P2]. change (mk_nd Real (pre ++ [in_M p; in_N p]) (concat ims)) with (of_imgs Real pre (in_M p) (in_N p) ims).
  rewrite (input_flat tf2 usual2_tf (in_M p) (in_N p) pre Real ims P1 P2). cbn [bind]. unfold scattering2d, paths2, tfobj. cbn [c_pad object2]. rewrite Hpp. reflexivity.
  all: apply (in_pos p Hp).
Qed.
Print Assumptions C66_tensorflow_refuted.

(** ** C67 to C69 *)
Section Map.
Variables (p : params2).
Hypothesis (Hp : valid2 p).
Definition map_nd (f : C -> C) (x : nd C) : nd C := mk_nd (nd_dtype x) (nd_shape x) (map f (nd_data x)).
Lemma map_batch pre f x : batch2 p pre x -> batch2 p pre (map_nd f x).
Proof. intros (Hw & Hd & Hs). repeat split; try assumption. unfold nd_wf, map_nd in *. cbn [nd_data nd_shape]. now rewrite map_length. Qed.
Lemma map_image f b x : image p b (map_nd f x) = map f (image p b x).
Proof. unfold image, block, map_nd. cbn [nd_data]. now rewrite skipn_map, firstn_map. Qed.
Lemma map_padded f im : List.length im = (in_M p * in_N p)%nat -> padded p (map f im) = map f (padded p im).
Proof.
  intros Him. unfold padded, in_M, in_N in *. destruct (a_pre_pad p); [reflexivity|]. rewrite img_map. apply img_ext. intros u v _ _. unfold px.
  pose proof (pos2 p Hp). apply (iat_map f (RtoC 0) (RtoC 0) (Z.to_nat (a_M p))); [exact Him|apply reflect_lt; lia|apply reflect_lt; lia].
Qed.
(** Two runs of the same object: paths in the same place have the same label. *)
Lemma two_runs s pre pre' x x' : a_out_type p = "list"%string -> ScatteringNumPy2D p = Ok s -> batch2 p pre x -> batch2 p pre' x' ->
  exists ps ps', scattering2 np2 s x = Ok (List2 ps) /\ scattering2 np2 s x' = Ok (List2 ps') /\ List.length ps = List.length ps' /\
    forall k q q', nth_error ps k = Some q -> nth_error ps' k = Some q' ->
      r_j q = r_j q' /\ r_n q = r_n q' /\ r_theta q = r_theta q' /\ label2 (a_J p) (a_L p) (r_j q) (r_theta q) /\
      (forall b, (b < prod pre)%nat -> coef p b q = value2 (padded_M p) (padded_N p) (a_J p) (a_L p) (r_j q) (r_theta q) (padded p (image p b x))) /\
      (forall b, (b < prod pre')%nat -> coef p b q' = value2 (padded_M p) (padded_N p) (a_J p) (a_L p) (r_j q) (r_theta q) (padded p (image p b x'))).
Proof.
  intros Ho Hs Hx Hx'. apply (numpy_new p Hp) in Hs. subst s.
  destruct (paths_of p pre x Hp Hx) as (ims & -> & Hi & K & H). destruct (paths_of p pre' x' Hp Hx') as (ims' & -> & Hi' & K' & H').
  exists (outs2 p pre (padded_ims p ims)), (outs2 p pre' (padded_ims p ims')). split; [now apply numpy_list|]. split; [now apply numpy_list|].
  assert (EK := eq_trans K (eq_sym K')). split; [apply (f_equal (@List.length _)) in EK; now rewrite !map_length in EK|].
  intros k q q' Hq Hq'. pose proof (map_nth_error key2 _ _ Hq) as A. pose proof (map_nth_error key2 _ _ Hq') as A'. rewrite EK, A' in A.
  unfold key2 in A. injection A as A1 A2 A3. rewrite A1, A2, A3. destruct (H q (nth_error_In _ _ Hq)) as (Hl & _ & _ & _ & B). destruct (H' q' (nth_error_In _ _ Hq')) as (Hl' & _ & _ & _ & B').
  rewrite A1, A3 in *. repeat split; try assumption.
Qed.
End Map.
(** C67. *)
Theorem C67_adding_a_constant : forall p s pre x c, 1 <= a_J p -> 1 <= a_L p -> 2 ^ a_J p <= a_M p -> 2 ^ a_J p <= a_N p -> a_out_type p = "list"%string ->
  ScatteringNumPy2D p = Ok s -> batch2 p pre x ->
  exists ps ps', scattering2 np2 s x = Ok (List2 ps) /\ scattering2 np2 s (map_nd (Cplus (RtoC c)) x) = Ok (List2 ps') /\ List.length ps = List.length ps' /\
    forall k q q', nth_error ps k = Some q -> nth_error ps' k = Some q' -> r_j q' = r_j q /\ r_theta q' = r_theta q /\
      forall b, (b < prod pre)%nat -> r_j q <> [] -> coef p b q' = coef p b q.
Proof.
  intros p s pre x c HJ HL HM HN Ho Hs Hx. assert (Hp : valid2 p) by (split; [|split]; assumption).
  destruct (two_runs p Hp s pre pre x _ Ho Hs Hx (map_batch p pre (Cplus (RtoC c)) x Hx)) as (ps & ps' & E & E' & EL & H). exists ps, ps'. split; [exact E|]. split; [exact E'|]. split; [exact EL|].
  intros k q q' Hq Hq'. destruct (H k q q' Hq Hq') as (A1 & A2 & A3 & Hl & B & B'). split; [congruence|]. split; [congruence|]. intros b Hb Hne.
  rewrite B, B' by exact Hb. rewrite map_image. rewrite map_padded by first [exact Hp|apply (image_length p pre); assumption].
  destruct (dims2 p Hp) as (P1 & P2 & D1 & D2). apply value2_add_const; try assumption. apply padded_length; [exact Hp|]. now apply (image_length p pre).
Qed.
Print Assumptions C67_adding_a_constant.
Theorem C67_constant_image : forall p s pre c, 1 <= a_J p -> 1 <= a_L p -> 2 ^ a_J p <= a_M p -> 2 ^ a_J p <= a_N p -> a_out_type p = "list"%string ->
  ScatteringNumPy2D p = Ok s ->
  exists ps, scattering2 np2 s (mk_nd Real (pre ++ [in_M p; in_N p]) (repeat (RtoC c) (prod (pre ++ [in_M p; in_N p])))) = Ok (List2 ps) /\
    forall q, In q ps -> r_j q <> [] -> forall b, (b < prod pre)%nat -> coef p b q = repeat (RtoC 0) (out_M p * out_N p).
Proof.
  intros p s pre c HJ HL HM HN Ho Hs. assert (Hp : valid2 p) by (split; [|split]; assumption). set (x := mk_nd _ _ _).
  assert (Hx : batch2 p pre x) by (repeat split; unfold nd_wf, x; cbn [nd_data nd_shape]; apply repeat_length).
  apply (numpy_new p Hp) in Hs. subst s. destruct (paths_of p pre x Hp Hx) as (ims & E & Hi & _ & H). exists (outs2 p pre (padded_ims p ims)).
  split; [rewrite E; now apply numpy_list|]. intros q Hq Hne b Hb. destruct (H q Hq) as (Hl & _ & _ & _ & B). rewrite B by exact Hb.
  assert (EI : image p b x = repeat (RtoC c) (in_M p * in_N p)).
  { unfold image, block, x. cbn [nd_data]. rewrite prod2. assert (SK : forall n k, skipn k (repeat (RtoC c) n) = repeat (RtoC c) (n - k)).
    { induction n as [|n IH]; intros [|k]; try reflexivity. cbn [repeat skipn Nat.sub]. apply IH. }
    assert (FI : forall k n, (k <= n)%nat -> firstn k (repeat (RtoC c) n) = repeat (RtoC c) k).
    { induction k as [|k IH]; intros [|n] Hk; try reflexivity; [lia|]. cbn [repeat firstn]. f_equal. apply IH. lia. }
    rewrite SK, FI by nia. reflexivity. }
  assert (EP : padded p (image p b x) = repeat (RtoC c) (padded_M p * padded_N p)).
  { rewrite EI. unfold padded, in_M, in_N in *. destruct (a_pre_pad p); [reflexivity|]. apply img_const. intros u v _ _. pose proof (pos2 p Hp). apply px_repeat.
    pose proof (reflect_lt (Z.to_nat (a_M p)) (Z.of_nat u - (Z.of_nat (padded_M p) - a_M p) / 2) ltac:(lia)).
    pose proof (reflect_lt (Z.to_nat (a_N p)) (Z.of_nat v - (Z.of_nat (padded_N p) - a_N p) / 2) ltac:(lia)). nia. }
  rewrite EP. destruct (dims2 p Hp) as (P1 & P2 & D1 & D2). rewrite (value2_const (padded_M p) (padded_N p)) by assumption.
  destruct (sizes2 p Hp) as [S1 S2]. change (padded_M p) with (Mp p). change (padded_N p) with (Np p). now rewrite S1, S2.
Qed.
Print Assumptions C67_constant_image.
Example C67_instance : forall s, ScatteringNumPy2D (mk_params2 3 8 10 8 2 false "list") = Ok s ->
  exists ps, scattering2 np2 s (mk_nd Real [8; 10]%nat (repeat (RtoC 5) 80)) = Ok (List2 ps) /\
    forall q, In q ps -> r_j q <> [] -> coef (mk_params2 3 8 10 8 2 false "list") 0 q = [RtoC 0].
Proof.
  intros s Hs. destruct (C67_constant_image (mk_params2 3 8 10 8 2 false "list") s [] 5) as (ps & E & H); try (cbn; lia); try assumption; try reflexivity.
  exists ps. split; [exact E|]. intros q Hq Hne. apply (H q Hq Hne 0%nat). cbn. lia.
Qed.

(** C68: every image of a batch is transformed on its own. *)
Theorem C68_batch : forall p s pre pre' x x', 1 <= a_J p -> 2 ^ a_J p <= a_M p -> 2 ^ a_J p <= a_N p -> a_out_type p = "list"%string ->
  ScatteringNumPy2D p = Ok s -> batch2 p pre x -> batch2 p pre' x' ->
  exists ps ps', scattering2 np2 s x = Ok (List2 ps) /\ scattering2 np2 s x' = Ok (List2 ps') /\ List.length ps = List.length ps' /\
    forall k q q', nth_error ps k = Some q -> nth_error ps' k = Some q' -> r_j q' = r_j q /\ r_n q' = r_n q /\ r_theta q' = r_theta q /\
      forall b b', (b < prod pre)%nat -> (b' < prod pre')%nat -> image p b x = image p b' x' -> coef p b q = coef p b' q'.
Proof.
  intros p s pre pre' x x' HJ HM HN Ho Hs Hx Hx'. assert (Hp : valid2 p) by (split; [|split]; assumption).
  destruct (two_runs p Hp s pre pre' x x' Ho Hs Hx Hx') as (ps & ps' & E & E' & EL & H). exists ps, ps'. split; [exact E|]. split; [exact E'|]. split; [exact EL|].
  intros k q q' Hq Hq'. destruct (H k q q' Hq Hq') as (A1 & A2 & A3 & Hl & B & B'). repeat split; try congruence. intros b b' Hb Hb' Eb. rewrite B, B' by assumption. now rewrite Eb.
Qed.
Print Assumptions C68_batch.
(** The second of three images, and the same image alone. *)
Example C68_instance : forall x x', nd_wf x -> nd_dtype x = Real -> nd_shape x = [3; 2; 2]%nat -> nd_wf x' -> nd_dtype x' = Real -> nd_shape x' = [2; 2]%nat ->
  firstn 4 (skipn 4 (nd_data x)) = firstn 4 (nd_data x') ->
  exists s ps ps', ScatteringNumPy2D (mk_params2 1 2 2 8 2 false "list") = Ok s /\ scattering2 np2 s x = Ok (List2 ps) /\ scattering2 np2 s x' = Ok (List2 ps') /\
    forall k q q', nth_error ps k = Some q -> nth_error ps' k = Some q' -> firstn 1 (skipn 1 (nd_data (r_coef q))) = firstn 1 (nd_data (r_coef q')).
Proof.
  intros x x' Hw Hd Hs Hw' Hd' Hs' Hxx. set (p := mk_params2 1 2 2 8 2 false "list"). exists (npobj p).
  assert (Hn : ScatteringNumPy2D p = Ok (npobj p)) by (unfold ScatteringNumPy2D; rewrite new2_eval by (cbn; lia); reflexivity).
  destruct (C68_batch p (npobj p) [3%nat] [] x x') as (ps & ps' & E & E' & _ & H); try (cbn; lia); try reflexivity; try exact Hn; try (repeat split; assumption).
  exists ps, ps'. split; [exact Hn|]. split; [exact E|]. split; [exact E'|]. intros k q q' Hq Hq'. destruct (H k q q' Hq Hq') as (_ & _ & _ & HH).
  apply (HH 1%nat 0%nat); try (cbn; lia). exact Hxx.
Qed.

(** C69: homogeneity. *)
Theorem C69_scaling : forall p s pre x c, 1 <= a_J p -> 2 ^ a_J p <= a_M p -> 2 ^ a_J p <= a_N p -> a_out_type p = "list"%string ->
  ScatteringNumPy2D p = Ok s -> batch2 p pre x ->
  exists ps ps', scattering2 np2 s x = Ok (List2 ps) /\ scattering2 np2 s (map_nd (Cmult (RtoC c)) x) = Ok (List2 ps') /\ List.length ps = List.length ps' /\
    forall k q q', nth_error ps k = Some q -> nth_error ps' k = Some q' -> r_j q' = r_j q /\ r_theta q' = r_theta q /\
      forall b, (b < prod pre)%nat -> coef p b q' = map (Cmult (RtoC (if Nat.eqb (List.length (r_j q)) 0 then c else Rabs c))) (coef p b q).
Proof.
  intros p s pre x c HJ HM HN Ho Hs Hx. assert (Hp : valid2 p) by (split; [|split]; assumption).
  destruct (two_runs p Hp s pre pre x _ Ho Hs Hx (map_batch p pre (Cmult (RtoC c)) x Hx)) as (ps & ps' & E & E' & EL & H). exists ps, ps'. split; [exact E|]. split; [exact E'|]. split; [exact EL|].
  intros k q q' Hq Hq'. destruct (H k q q' Hq Hq') as (A1 & A2 & A3 & Hl & B & B'). split; [congruence|]. split; [congruence|]. intros b Hb.
  rewrite B, B' by exact Hb. rewrite map_image. rewrite map_padded by first [exact Hp|apply (image_length p pre); assumption].
  destruct (dims2 p Hp) as (P1 & P2 & _).
  rewrite value2_scal; [destruct (r_j q); reflexivity|exact P1|exact P2|exact Hl|]. apply padded_length; [exact Hp|]. now apply (image_length p pre).
Qed.
Print Assumptions C69_scaling.
Example C69_instance : forall x, nd_wf x -> nd_dtype x = Real -> nd_shape x = [2; 5; 4]%nat ->
  exists s ps ps', ScatteringNumPy2D (mk_params2 2 5 4 3 2 false "list") = Ok s /\ scattering2 np2 s x = Ok (List2 ps) /\
    scattering2 np2 s (map_nd (Cmult (RtoC (-2))) x) = Ok (List2 ps') /\
    forall k q q', nth_error ps k = Some q -> nth_error ps' k = Some q' -> r_j q <> [] -> firstn 1 (nd_data (r_coef q')) = map (Cmult (RtoC 2)) (firstn 1 (nd_data (r_coef q))).
Proof.
  intros x Hw Hd Hs. set (p := mk_params2 2 5 4 3 2 false "list"). exists (npobj p).
  assert (Hn : ScatteringNumPy2D p = Ok (npobj p)) by (unfold ScatteringNumPy2D; rewrite new2_eval by (cbn; lia); reflexivity).
  destruct (C69_scaling p (npobj p) [2%nat] x (-2)) as (ps & ps' & E & E' & _ & H); try (cbn; lia); try reflexivity; try exact Hn; [repeat split; assumption|].
  exists ps, ps'. split; [exact Hn|]. split; [exact E|]. split; [exact E'|]. intros k q q' Hq Hq' Hne. destruct (H k q q' Hq Hq') as (_ & _ & HH).
  specialize (HH 0%nat ltac:(cbn; lia)). destruct (r_j q); [contradiction|]. cbn [List.length Nat.eqb] in HH. replace (Rabs (-2)) with 2%R in HH by (rewrite Rabs_left; lra). exact HH.
Qed.

(** ** C70: TensorFlow gives the results of NumPy. *)
Lemma skipn_twice {A} a b (l : list A) : skipn a (skipn b l) = skipn (b + a) l.
Proof. revert l. induction b as [|b IH]; intros l; [reflexivity|]. destruct l as [|h l]; [now rewrite !skipn_nil|]. cbn [skipn Nat.add]. apply IH. Qed.
Lemma data_blocks n k (l l' : list C) : List.length l = (n * k)%nat -> List.length l' = (n * k)%nat ->
  (forall i, (i < n)%nat -> firstn k (skipn (i * k) l) = firstn k (skipn (i * k) l')) -> l = l'.
Proof.
  revert l l'. induction n as [|n IH]; intros l l' H H' E.
  - apply length_zero_iff_nil in H. apply length_zero_iff_nil in H'. congruence.
  - rewrite <- (firstn_skipn k l), <- (firstn_skipn k l'). pose proof (E 0%nat ltac:(lia)) as E0. cbn [Nat.mul skipn] in E0. rewrite E0. f_equal.
    apply IH; [rewrite skipn_length; lia|rewrite skipn_length; lia|]. intros i Hi. rewrite !skipn_twice. specialize (E (S i) ltac:(lia)).
    replace (k + i * k)%nat with (S i * k)%nat by lia. exact E.
Qed.
Theorem C70_tensorflow : forall p s s' pre x, 1 <= a_J p -> 2 ^ a_J p <= a_M p -> 2 ^ a_J p <= a_N p -> a_pre_pad p = false ->
  a_out_type p = "array"%string \/ a_out_type p = "list"%string ->
  ScatteringNumPy2D p = Ok s -> ScatteringTensorFlow2D p = Ok s' -> image_batch p pre x ->
  scattering2 tf2 s' x = scattering2 np2 s x /\ exists out, scattering2 np2 s x = Ok out.
Proof.
  intros p s s' pre x HJ HM HN Hpp Ho Hs Hs' Hx. assert (Hp : accepted2 p) by (split; [|split]; assumption). apply (numpy_new p Hp) in Hs. apply (tf_new p Hp) in Hs'. subst s s'.
  destruct (batch_images p pre x Hx Hpp) as (ims & -> & Hi). destruct Ho as [Ho|Ho].
  - destruct (numpy_array p pre ims Hp Hi Ho) as (y & E & D & W & Sh & B). destruct (tf_array p pre ims Hp Hi Hpp Ho) as (y' & E' & D' & W' & Sh' & B').
    rewrite E, E'. split; [|eauto]. do 2 f_equal. destruct y as [d sh l], y' as [d' sh' l']. cbn [nd_dtype nd_shape nd_data] in *. subst d d' sh sh'. f_equal.
    set (ps := outs2 p pre (padded_ims p ims)) in *. unfold nd_wf in W, W'. cbn [nd_data nd_shape] in W, W'.
    assert (EP : prod (pre ++ [List.length ps; m2 p; n2 p]) = (prod pre * List.length ps * (m2 p * n2 p))%nat) by (rewrite prod_app; cbn; lia). rewrite EP in *.
    apply (data_blocks (prod pre * List.length ps) (m2 p * n2 p)); try assumption. intros i Hi'.
    assert (Hn : List.length ps <> 0%nat) by (unfold ps, outs2, all_paths; cbn; lia).
    pose proof (Nat.div_mod i (List.length ps) Hn) as Ei. pose proof (Nat.mod_upper_bound i (List.length ps) Hn) as Hm.
    assert (Hb : (i / List.length ps < prod pre)%nat) by (apply Nat.div_lt_upper_bound; lia).
    destruct (nth_error ps (i mod List.length ps)) as [q|] eqn:Eq; [|apply nth_error_None in Eq; lia].
    specialize (B _ _ q Hb Eq). specialize (B' _ _ q Hb Eq). rewrite (Nat.mul_comm _ (List.length ps)), <- Ei in B, B'. unfold block in B, B'. cbn [nd_data] in B, B'. congruence.
  - rewrite (tf_list p pre ims Hp Hi Hpp Ho), (numpy_list p pre ims Hp Hi Ho). eauto.
Qed.
Print Assumptions C70_tensorflow.
Example C70_instance : forall x, nd_wf x -> nd_dtype x = Real -> nd_shape x = [4; 4; 7]%nat ->
  exists s s', ScatteringNumPy2D (mk_params2 2 4 7 8 2 false "array") = Ok s /\ ScatteringTensorFlow2D (mk_params2 2 4 7 8 2 false "array") = Ok s' /\
    scattering2 tf2 s' x = scattering2 np2 s x.
Proof.
  intros x Hw Hd Hs. set (p := mk_params2 2 4 7 8 2 false "array"). exists (npobj p), (tfobj p).
  assert (Hn : ScatteringNumPy2D p = Ok (npobj p)) by (unfold ScatteringNumPy2D; rewrite new2_eval by (cbn; lia); reflexivity).
  assert (Hn' : ScatteringTensorFlow2D p = Ok (tfobj p)) by (unfold ScatteringTensorFlow2D; rewrite new2_eval by (cbn; lia); reflexivity).
  split; [exact Hn|]. split; [exact Hn'|]. apply (C70_tensorflow p (npobj p) (tfobj p) [4%nat] x); try (cbn; lia); try reflexivity; try assumption; [now left|repeat split; assumption].
Qed.

(** ** C71 *)
(** The image moved circularly by [d] rows and [e] columns. *)
Definition translate (M N : nat) (d e : Z) (im : list C) : list C :=
  img M N (fun u v => px N im (Z.to_nat ((Z.of_nat u - d) mod Z.of_nat M)) (Z.to_nat ((Z.of_nat v - e) mod Z.of_nat N))).
Theorem C71_translation : forall p s pre x x' d e, 1 <= a_J p -> 2 ^ a_J p <= a_M p -> 2 ^ a_J p <= a_N p -> a_out_type p = "list"%string -> a_pre_pad p = true ->
  ScatteringNumPy2D p = Ok s -> batch2 p pre x -> batch2 p pre x' ->
  (forall b, (b < prod pre)%nat -> image p b x' = translate (in_M p) (in_N p) (2 ^ a_J p * d) (2 ^ a_J p * e) (image p b x)) ->
  exists ps ps', scattering2 np2 s x = Ok (List2 ps) /\ scattering2 np2 s x' = Ok (List2 ps') /\ List.length ps = List.length ps' /\
    forall k q q', nth_error ps k = Some q -> nth_error ps' k = Some q' -> r_j q' = r_j q /\ r_theta q' = r_theta q /\
      forall b u v, (b < prod pre)%nat -> 0 <= u < Z.of_nat (out_M p) -> 0 <= v < Z.of_nat (out_N p) ->
        0 <= u - d < Z.of_nat (out_M p) -> 0 <= v - e < Z.of_nat (out_N p) ->
        px (out_N p) (coef p b q') (Z.to_nat u) (Z.to_nat v) = px (out_N p) (coef p b q) (Z.to_nat (u - d)) (Z.to_nat (v - e)).
Proof.
  intros p s pre x x' d e HJ HM HN Ho Hpp Hs Hx Hx' Htr. assert (Hp : valid2 p) by (split; [|split]; assumption).
  destruct (two_runs p Hp s pre pre x x' Ho Hs Hx Hx') as (ps & ps' & E & E' & EL & H). exists ps, ps'. split; [exact E|]. split; [exact E'|]. split; [exact EL|].
  intros k q q' Hq Hq'. destruct (H k q q' Hq Hq') as (A1 & A2 & A3 & Hl & B & B'). split; [congruence|]. split; [congruence|]. intros b u v Hb Hu Hv Hd He.
  rewrite B, B' by exact Hb. rewrite Htr by exact Hb. pose proof (image_length p pre b x Hx Hb) as HI. unfold padded. rewrite Hpp. unfold in_M, in_N in *. rewrite Hpp in *.
  destruct (dims2 p Hp) as (P1 & P2 & D1 & D2). destruct (sizes2 p Hp) as [S1 S2].
  change (padded_M p) with (Mp p) in *. change (padded_N p) with (Np p) in *. change (out_M p) with (m2 p) in *. change (out_N p) with (n2 p) in *.
  rewrite <- S1 in Hu, Hd. rewrite <- S2 in *. rewrite <- (Zpow_p2 (a_J p)) by lia.
  change (translate (Mp p) (Np p)) with (rot2 (Mp p) (Np p)).
  pose proof (value2_rot (Mp p) (Np p) (a_J p) (a_L p) P1 P2 D1 D2 (r_j q) (r_theta q) d e (image p b x) (Z.to_nat u) (Z.to_nat v) Hl HI) as R. cbv zeta in R.
  rewrite R by lia. rewrite !Z2Nat.id by lia. reflexivity.
Qed.
Print Assumptions C71_translation.
(** A padded image of 20 x 24 pixels moved by 4 rows: outputs move by one sample. *)
Example C71_instance : forall l, List.length l = 480%nat ->
  exists s ps ps', ScatteringNumPy2D (mk_params2 2 12 16 8 2 true "list") = Ok s /\
    scattering2 np2 s (mk_nd Real [20; 24]%nat l) = Ok (List2 ps) /\ scattering2 np2 s (mk_nd Real [20; 24]%nat (translate 20 24 4 0 l)) = Ok (List2 ps') /\
    forall k q q', nth_error ps k = Some q -> nth_error ps' k = Some q' -> forall v, 0 <= v < 4 ->
      px 4 (coef (mk_params2 2 12 16 8 2 true "list") 0 q') 2 (Z.to_nat v) = px 4 (coef (mk_params2 2 12 16 8 2 true "list") 0 q) 1 (Z.to_nat v).
Proof.
  intros l Hl. set (p := mk_params2 2 12 16 8 2 true "list"). exists (npobj p).
  assert (Hn : ScatteringNumPy2D p = Ok (npobj p)) by (unfold ScatteringNumPy2D; rewrite new2_eval by (cbn; lia); reflexivity).
  assert (Hx : batch2 p [] (mk_nd Real [20; 24]%nat l)) by (repeat split; exact Hl).
  assert (Hx' : batch2 p [] (mk_nd Real [20; 24]%nat (translate 20 24 4 0 l))) by (repeat split; unfold nd_wf; cbn [nd_data nd_shape]; unfold translate; rewrite img_length; reflexivity).
  destruct (C71_translation p (npobj p) [] _ _ 1 0 ltac:(cbn; lia) ltac:(cbn; lia) ltac:(cbn; lia) eq_refl eq_refl Hn Hx Hx') as (ps & ps' & E & E' & _ & H).
  { intros b Hb. cbn in Hb. replace b with 0%nat by lia. unfold image, block. change (in_M p * in_N p)%nat with 480%nat. cbn [Nat.mul skipn nd_data].
    rewrite !firstn_all2; [reflexivity|lia|]. unfold translate. rewrite img_length. cbn. lia. }
  exists ps, ps'. split; [exact Hn|]. split; [exact E|]. split; [exact E'|]. intros k q q' Hq Hq' v Hv. destruct (H k q q' Hq Hq') as (_ & _ & HH).
  specialize (HH 0%nat 2 v ltac:(cbn; lia) ltac:(cbn; lia) ltac:(cbn; lia) ltac:(cbn; lia) ltac:(cbn; lia)). rewrite Z.sub_0_r in HH. exact HH.
Qed.

(** ** C72 *)
(** gabor_2d is a Gaussian envelope of width [sigma] along the direction [theta] and [sigma / slant] across, times a wave of frequency
    [xi] along [theta], made periodic by adding the 25 nearest copies. *)
Definition gabor_at (sigma theta xi slant X Y : R) : C :=
  let a := (X * cos theta + Y * sin theta)%R in
  let c := (- X * sin theta + Y * cos theta)%R in
  (RtoC (exp (- (a ^ 2 + slant ^ 2 * c ^ 2) / (2 * sigma ^ 2))) * (cos (xi * a), sin (xi * a)))%C.
Theorem C72_gabor : forall M N sigma theta xi slant u v, (0 < sigma)%R -> (u < M)%nat -> (v < N)%nat ->
  px N (gabor_2d M N sigma theta xi slant) u v =
  (csum 5 (fun i => csum 5 (fun k => gabor_at sigma theta xi slant (IZR (Z.of_nat u + (Z.of_nat i - 2) * Z.of_nat M)) (IZR (Z.of_nat v + (Z.of_nat k - 2) * Z.of_nat N))))
   / RtoC (2 * (31415 / 10000) * sigma * sigma / slant))%C.
Proof.
  intros M N sigma theta xi slant u v Hs Hu Hv. unfold gabor_2d. rewrite px_img by assumption.
  assert (G : forall X Y, gabor_term sigma theta xi slant X Y = gabor_at sigma theta xi slant X Y).
  { intros X Y. unfold gabor_term, gabor_at, curv, mul22, cis. f_equal; [do 2 f_equal; field; lra|]. f_equal; f_equal; ring. }
  f_equal. unfold csum. cbn [seq map fold_right fold_left Z.of_nat Pos.of_succ_nat Pos.succ Z.sub Z.opp Z.add Z.pos_sub].
  rewrite !G. cbn -[Cplus]. ring.
Qed.
Print Assumptions C72_gabor.
(** The filters of the bank: the wavelet of scale j and angle theta is a Gabor filter made of zero mean by subtracting a multiple of its
    envelope; it is tabulated as the real part of its 2-D discrete Fourier transform, and vanishes at frequency zero.  The low-pass does not. *)
Theorem C72_filters : forall p s, 1 <= a_J p -> 1 <= a_L p -> 2 ^ a_J p <= a_M p -> 2 ^ a_J p <= a_N p -> ScatteringNumPy2D p = Ok s ->
  let M := padded_M p in let N := padded_N p in
  (forall f, In f (c_psi s) -> exists w, nth_error (g_levels f) 0 = Some w /\ nd_shape w = [M; N] /\ 0 <= g_j f < a_J p /\ 0 <= g_theta f < a_L p /\
     let sigma := (8 / 10 * 2 ^ (Z.to_nat (g_j f)))%R in let xi := (3 / 4 * PI / 2 ^ (Z.to_nat (g_j f)))%R in let slant := (4 / IZR (a_L p))%R in
     let angle := (IZR (Z.quot (a_L p - 2) 2 - g_theta f) * PI / IZR (a_L p))%R in
     exists kappa psi, List.length psi = (M * N)%nat /\
       (forall u v, (u < M)%nat -> (v < N)%nat -> px N psi u v = (px N (gabor_2d M N sigma angle xi slant) u v - kappa * px N (gabor_2d M N sigma angle 0 slant) u v)%C) /\
       csum M (fun u => csum N (fun v => px N psi u v)) = RtoC 0 /\
       (forall k l, (k < M)%nat -> (l < N)%nat -> px N (nd_data w) k l = RtoC (Re (dft2_at M N (px N psi) (Z.of_nat k) (Z.of_nat l)))) /\
       px N (nd_data w) 0 0 = RtoC 0) /\
  (exists w, nth_error (g_levels (c_phi s)) 0 = Some w /\ nd_shape w = [M; N] /\
     (forall k l, (k < M)%nat -> (l < N)%nat -> px N (nd_data w) k l = RtoC (Re (dft2_at M N (px N (gabor_2d M N (8 / 10 * 2 ^ (Z.to_nat (a_J p - 1))) 0 0 1)) (Z.of_nat k) (Z.of_nat l)))) /\
     exists r, (0 < r)%R /\ px N (nd_data w) 0 0 = RtoC r).
Proof.
  intros p s HJ HL HM HN Hs M N. assert (Hp : valid2 p) by (split; [|split]; assumption). apply (numpy_new p Hp) in Hs. subst s. unfold M, N in *.
  change (padded_M p) with (Mp p). change (padded_N p) with (Np p). destruct (dims2 p Hp) as (P1 & P2 & D1 & D2).
  assert (HR : forall x k l, List.length x = (Mp p * Np p)%nat -> (k < Mp p)%nat -> (l < Np p)%nat -> px (Np p) (real_fft2 (Mp p) (Np p) x) k l = RtoC (Re (dft2_at (Mp p) (Np p) (px (Np p) x) (Z.of_nat k) (Z.of_nat l)))).
  { intros x k l Hx Hk Hl. unfold real_fft2, px at 1. rewrite (iat_map (fun c => RtoC (Re c)) (RtoC 0) (RtoC 0) (Mp p)); try assumption.
    - do 2 f_equal. now apply px_dft2.
    - apply (sep2_length cops); [apply dft_length|exact Hx]. }
  assert (Hlev : forall x, List.length x = (Mp p * Np p)%nat -> periodize2 cops (Mp p) (Np p) x 0 = x).
  { intros x Hx. rewrite periodize2_restrict; try assumption.
    - cbn [Nat.pow]. now apply restrict2_1.
    - replace (2 ^ (0 + 1))%nat with (p2 1) by reflexivity. apply (divide_le 1 (a_J p)); [lia|exact D1].
    - replace (2 ^ (0 + 1))%nat with (p2 1) by reflexivity. apply (divide_le 1 (a_J p)); [lia|exact D2]. }
  split.
  - intros f Hf. apply filter_bank_In in Hf as (j & t & Hj & Ht & ->). cbn [psi_2d g_levels g_j g_theta].
    set (ang := (IZR (Z.quot (a_L p - 2) 2 - t) * PI / IZR (a_L p))%R). set (sl := (4 / IZR (a_L p))%R).
    assert (EZ : IZR (2 ^ j) = (2 ^ Z.to_nat j)%R) by (rewrite <- (Z2Nat.id j) at 1 by lia; now rewrite <- pow_IZR).
    assert (Hsl : (0 < sl)%R) by (unfold sl; apply Rdiv_lt_0_compat; [lra|apply IZR_lt; lia]).
    rewrite EZ. set (sg := (8 / 10 * 2 ^ Z.to_nat j)%R). set (xi := (3 / 4 * PI / 2 ^ Z.to_nat j)%R).
    assert (Hsg : (0 < sg)%R) by (unfold sg; apply Rmult_lt_0_compat; [lra|apply pow_lt; lra]).
    set (psi := morlet_2d (Mp p) (Np p) sg ang xi sl). assert (Lp : List.length psi = (Mp p * Np p)%nat) by apply morlet_length.
    eexists. split; [rewrite nth_error_map; change 0%nat with (Z.to_nat 0); rewrite zrange0_nth by lia; reflexivity|].
    split; [unfold level2; cbn [nd_shape Z.to_nat Nat.pow]; now rewrite !Nat.div_1_r|]. split; [exact Hj|]. split; [exact Ht|].
    exists (osum cops (gabor_2d (Mp p) (Np p) sg ang xi sl) / osum cops (gabor_2d (Mp p) (Np p) sg ang 0 sl))%C, psi. split; [exact Lp|].
    assert (Hd : forall k l, (k < Mp p)%nat -> (l < Np p)%nat -> px (Np p) (nd_data (level2 cops (Mp p) (Np p) (real_fft2 (Mp p) (Np p) psi) (Z.to_nat 0))) k l =
      RtoC (Re (dft2_at (Mp p) (Np p) (px (Np p) psi) (Z.of_nat k) (Z.of_nat l)))).
    { intros k l Hk Hl. cbn [level2 nd_data Z.to_nat]. rewrite Hlev by now apply real_fft2_length. now apply HR. }
    assert (Hsum : csum (Mp p) (fun u => csum (Np p) (fun v => px (Np p) psi u v)) = RtoC 0).
    { rewrite <- (osum_px (Mp p) (Np p) psi Lp). apply morlet_sum; assumption. }
    split; [|split; [exact Hsum|split; [exact Hd|]]].
    + intros u v Hu Hv. unfold psi, morlet_2d. unfold px at 1. set (a := gabor_2d _ _ _ _ xi _). set (b := gabor_2d _ _ _ _ 0 _).
      assert (La : List.length a = (Mp p * Np p)%nat) by apply img_length. assert (Lb : List.length b = (Mp p * Np p)%nat) by apply img_length.
      rewrite (iat_map _ (RtoC 0, RtoC 0) (RtoC 0) (Mp p)); try assumption; [|rewrite combine_length, La, Lb; apply Nat.min_id].
      unfold iat at 1 2. rewrite combine_nth by congruence. reflexivity.
    + rewrite Hd by assumption. cbn [Z.of_nat]. rewrite dft2_at_0 by assumption. rewrite Hsum. reflexivity.
  - cbn [npobj object2 c_phi bank2 filter_bank fst phi_2d g_levels].
    assert (EZ : powerRZ 2 (a_J p - 1) = (2 ^ Z.to_nat (a_J p - 1))%R) by (rewrite pow_powerRZ, Z2Nat.id by lia; reflexivity).
    rewrite EZ. set (g := gabor_2d _ _ _ _ _ _). assert (Lg : List.length g = (Mp p * Np p)%nat) by apply img_length.
    eexists. split; [rewrite nth_error_map; change 0%nat with (Z.to_nat 0); rewrite zrange0_nth by lia; reflexivity|].
    split; [unfold level2; cbn [nd_shape Z.to_nat Nat.pow]; now rewrite !Nat.div_1_r|]. cbn [level2 nd_data Z.to_nat]. rewrite Hlev by now apply real_fft2_length.
    split; [intros k l Hk Hl; now apply HR|]. pose proof (phi_hat_0 (Mp p) (Np p) (a_J p) P1 P2) as [Q1 Q2]. unfold phi_hat in Q1, Q2. rewrite EZ in Q1, Q2. fold g in Q1, Q2.
    exists (fst (px (Np p) (real_fft2 (Mp p) (Np p) g) 0 0)). split; [exact Q2|]. destruct (px (Np p) (real_fft2 (Mp p) (Np p) g) 0 0) as [re im]. cbn [fst snd] in *. subst im. reflexivity.
Qed.
Print Assumptions C72_filters.
(** The construction succeeds and there are 3 * 8 wavelets. *)
Example C72_instance : exists s, ScatteringNumPy2D (mk_params2 3 32 30 8 2 false "array") = Ok s /\ List.length (c_psi s) = 24%nat /\
  forall f, In f (c_psi s) -> exists w, nth_error (g_levels f) 0 = Some w /\ nd_shape w = [48; 40]%nat.
Proof.
  set (p := mk_params2 3 32 30 8 2 false "array"). exists (npobj p).
  assert (Hn : ScatteringNumPy2D p = Ok (npobj p)) by (unfold ScatteringNumPy2D; rewrite new2_eval by (cbn; lia); reflexivity).
  split; [exact Hn|]. split; [cbn [npobj object2 c_psi]; unfold bank2; rewrite bank_list, map_length, seq_length; reflexivity|].
  intros f Hf. destruct (C72_filters p (npobj p) ltac:(cbn; lia) ltac:(cbn; lia) ltac:(cbn; lia) ltac:(cbn; lia) Hn) as [H _]. destruct (H f Hf) as (w & E & Sh & _). exists w. split; [exact E|exact Sh].
Qed.
