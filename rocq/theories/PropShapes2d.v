(** Properties C42 to C45 and C47: sizes, padding, paths and totality of Scattering2D (NumPy, TensorFlow, Keras). *)
From Coq Require Import String Reals ZArith List Bool Arith Lia.
From Coquelicot Require Import Complex.
From Verif Require Import Base BaseProofs NdArray Backend NdProofs ComplexOps Construct1d Utils1dProofs Rows1d StackProofs Backend2d Core2d FilterBank2d
  Frontend2d Images Rows2d Pad2d Eval2d Keys2d.
Import ListNotations.
Local Open Scope Z_scope.
Local Ltac Zify.zify_post_hook ::= Z.div_mod_to_equations.
Notation np2 := (numpy_backend2 complex_ops).
Notation tf2 := (tf_backend2 complex_ops).

(** An input image batch: a real array of the declared size with any batch axes. *)
Definition image_batch (p : params2) (pre : list nat) (x : nd C) : Prop :=
  nd_wf x /\ nd_dtype x = Real /\ nd_shape x = pre ++ [Z.to_nat (a_M p); Z.to_nat (a_N p)].
Lemma batch_images p pre x : image_batch p pre x -> a_pre_pad p = false -> exists ims, x = of_imgs Real pre (M_in p) (N_in p) ims /\ imgs_ok pre (M_in p) (N_in p) ims.
Proof.
  intros (Hw & Hd & Hs) Hpp. unfold M_in, N_in. rewrite Hpp. destruct (of_imgs_intro x pre _ _ Hw Hs) as (ims & E & Hi). rewrite Hd in E. eauto.
Qed.

(** C42. *)
Theorem C42_padding : forall J M, 0 <= J -> 2 ^ J <= M ->
  let Mp := fst (compute_padding M M J) in
  let '(t, b, _, _) := pad_sizes M M Mp Mp in
  Mp mod 2 ^ J = 0 /\ t + M + b = Mp /\ 2 ^ J <= 2 * t /\ t <= b <= t + 1 /\ b <= 2 ^ J /\
  Mp / 2 ^ J - 2 = M / 2 ^ J /\
  (* the kept samples u = 1 .. M // 2**J of the low-passed padded image are at pixels of the image *)
  forall u, 1 <= u <= M / 2 ^ J -> 0 <= u * 2 ^ J - t < M.
Proof.
  intros J M HJ HM. cbn [compute_padding fst]. unfold pad_sizes. destruct (padded_total M J HJ) as [E _]. pose proof (left_right M J HJ) as (E1 & E2 & E3 & E4).
  fold (left_pad M J) (right_pad M J). assert (H : 0 < 2 ^ J) by (apply Z.pow_pos_nonneg; lia). rewrite E in *.
  split; [apply Z_mod_mult|]. repeat split; try lia.
  - rewrite Z.div_mul by lia. lia.
  - nia.
  - pose proof (Z.mul_div_le M (2 ^ J) H). assert (0 < left_pad M J) by lia. nia.
Qed.
Print Assumptions C42_padding.
Example C42_padding_instance : compute_padding 5 9 2 = (12, 16) /\ pad_sizes 5 9 12 16 = (3, 4, 3, 4).
Proof. split; reflexivity. Qed.

Theorem C42_output_size : forall p s pre x, 1 <= a_J p -> 2 ^ a_J p <= a_M p -> 2 ^ a_J p <= a_N p -> a_pre_pad p = false ->
  ScatteringNumPy2D p = Ok s -> image_batch p pre x ->
  let m := Z.to_nat (a_M p / 2 ^ a_J p) in let n := Z.to_nat (a_N p / 2 ^ a_J p) in
  (a_out_type p = "list"%string -> exists ps, scattering2 np2 s x = Ok (List2 ps) /\ forall q, In q ps -> nd_wf (r_coef q) /\ nd_shape (r_coef q) = pre ++ [m; n]) /\
  (a_out_type p = "array"%string -> exists y c, scattering2 np2 s x = Ok (Array2 y) /\ nd_wf y /\ nd_shape y = pre ++ [c; m; n]).
Proof.
  intros p s pre x HJ HM HN Hpp Hs Hx. assert (Hp : accepted2 p) by (split; [|split]; assumption). apply (numpy_new p Hp) in Hs. subst s.
  destruct (batch_images p pre x Hx Hpp) as (ims & -> & Hi). cbv zeta. fold (m2 p) (n2 p). split; intros Ho.
  - exists (outs2 p pre (padded_ims p ims)). split; [now apply numpy_list|]. intros q Hq. destruct (result_ok p pre ims Hp Hi q Hq) as (F & HF & E).
    rewrite E. split; [|reflexivity]. apply of_imgs_wf. apply (imgs_ok_map _ (Mp p) (Np p)); [exact HF|now apply padded_ok].
  - destruct (numpy_array p pre ims Hp Hi Ho) as (y & E & _ & Hw & Hsh & _). eauto.
Qed.
Print Assumptions C42_output_size.
(** Two images of 5 x 9 pixels, J = 2: coefficients of 1 x 2 samples. *)
Example C42_output_size_instance : forall x, nd_wf x -> nd_dtype x = Real -> nd_shape x = [2; 5; 9]%nat ->
  exists s ps, ScatteringNumPy2D (mk_params2 2 5 9 4 2 false "list") = Ok s /\ scattering2 np2 s x = Ok (List2 ps) /\
    forall q, In q ps -> nd_shape (r_coef q) = [2; 1; 2]%nat.
Proof.
  intros x Hw Hd Hs. set (p := mk_params2 2 5 9 4 2 false "list"). exists (npobj p).
  assert (Hn : ScatteringNumPy2D p = Ok (npobj p)) by (unfold ScatteringNumPy2D; rewrite new2_eval by (cbn; lia); reflexivity).
  destruct (C42_output_size p (npobj p) [2%nat] x) as [H _]; try (cbn; lia); try reflexivity; try exact Hn; [repeat split; assumption|].
  destruct (H eq_refl) as (ps & E & Hq). exists ps. split; [exact Hn|]. split; [exact E|]. intros q Hin. apply (Hq q Hin).
Qed.

(** C43. *)
(** The even periodic extension read by numpy's reflect mode. *)
Theorem C43_reflect : forall n i, (2 <= n)%nat ->
  (0 <= i < Z.of_nat n -> reflect n i = Z.to_nat i) /\ reflect n (- i) = reflect n i /\
  reflect n (i + 2 * (Z.of_nat n - 1)) = reflect n i /\ (reflect n i < n)%nat.
Proof.
  intros n i Hn. split; [apply reflect_inside|]. split; [|split; [|apply reflect_lt; lia]].
  - unfold reflect. destruct (Nat.eqb_spec n 1); [lia|]. f_equal. set (q := 2 * (Z.of_nat n - 1)). assert (0 < q) by lia.
    destruct (Z.eq_dec (i mod q) 0) as [E|E].
    + rewrite (Z_mod_zero_opp_full i q E), E. reflexivity.
    + rewrite (Z_mod_nz_opp_full i q E). pose proof (Z.mod_pos_bound i q ltac:(lia)). set (r := i mod q) in *.
      destruct (Z.ltb_spec (q - r) (Z.of_nat n)), (Z.ltb_spec r (Z.of_nat n)); lia.
  - rewrite <- (Z.mul_1_l (2 * (Z.of_nat n - 1))). apply reflect_period.
Qed.
Print Assumptions C43_reflect.
Theorem C43_padding_agrees : forall (K : Type) (o : ops K) J M N x B, 0 <= J -> 2 ^ J <= M -> 2 ^ J <= N -> 2 <= M -> 2 <= N ->
  nd_wf x -> nd_shape x = [B; Z.to_nat M; Z.to_nat N] ->
  let '(Mp, Np) := compute_padding M N J in
  let pads := pad_sizes M N Mp Np in
  let '(t, _, l, _) := pads in
  exists y, np2_pad o pads (M, N) x = Ok y /\ tf2_pad o pads (M, N) x = Ok y /\
    torch2_pad o pads (M, N) x = Ok (mk_nd (nd_dtype y) (nd_shape y ++ [1%nat]) (nd_data y)) /\
    nd_wf y /\ nd_dtype y = nd_dtype x /\ nd_shape y = [B; Z.to_nat Mp; Z.to_nat Np] /\
    forall b u v, (b < B)%nat -> (u < Z.to_nat Mp)%nat -> (v < Z.to_nat Np)%nat ->
      iat (o_zero o) (Z.to_nat Np) (block (Z.to_nat Mp * Z.to_nat Np) b y) u v =
      iat (o_zero o) (Z.to_nat N) (block (Z.to_nat M * Z.to_nat N) b x) (reflect (Z.to_nat M) (Z.of_nat u - t)) (reflect (Z.to_nat N) (Z.of_nat v - l)).
Proof.
  intros K o J M N x B HJ HM HN HM2 HN2 Hw Hs. cbn [compute_padding]. unfold pad_sizes.
  destruct (of_imgs_intro x [B] _ _ Hw Hs) as (ims & E & Hi). rewrite E. cbn [of_imgs nd_dtype].
  assert (H0 : 0 < 2 ^ J) by (apply Z.pow_pos_nonneg; lia).
  pose proof (left_right M J HJ) as LM. pose proof (left_right N J HJ) as LN.
  fold (left_pad M J) (right_pad M J) (left_pad N J) (right_pad N J).
  pose proof (special_pad_of o [B] (Z.to_nat M) (Z.to_nat N) ims Hi) as SP.
  set (t := Z.to_nat (left_pad M J)) in *. set (b := Z.to_nat (right_pad M J)) in *. set (l := Z.to_nat (left_pad N J)) in *. set (r := Z.to_nat (right_pad N J)) in *.
  assert (Ep : (left_pad M J, right_pad M J, left_pad N J, right_pad N J) = (Z.of_nat t, Z.of_nat b, Z.of_nat l, Z.of_nat r)) by (unfold t, b, l, r; rewrite !Z2Nat.id by lia; reflexivity).
  assert (Es : (M, N) = (Z.of_nat (Z.to_nat M), Z.of_nat (Z.to_nat N))) by (rewrite !Z2Nat.id by lia; reflexivity).
  assert (EM : (t + Z.to_nat M + b)%nat = Z.to_nat (padded_size M J)) by lia. assert (EN : (l + Z.to_nat N + r)%nat = Z.to_nat (padded_size N J)) by lia.
  assert (Pt : pad_ok (Z.to_nat M) t b) by (apply pad_ok_frontend; lia). assert (Pl : pad_ok (Z.to_nat N) l r) by (apply pad_ok_frontend; lia).
  exists (of_imgs (nd_dtype x) [B] (Z.to_nat (padded_size M J)) (Z.to_nat (padded_size N J)) (map (pad_img o (Z.to_nat M) (Z.to_nat N) t b l r) ims)).
  change (mk_nd (nd_dtype x) ([B] ++ [Z.to_nat M; Z.to_nat N]) (concat ims)) with (of_imgs (nd_dtype x) [B] (Z.to_nat M) (Z.to_nat N) ims).
  assert (HL : forall im, List.length (pad_img o (Z.to_nat M) (Z.to_nat N) t b l r im) = (Z.to_nat (padded_size M J) * Z.to_nat (padded_size N J))%nat).
  { intros im. unfold pad_img. rewrite img_length. now rewrite EM, EN. }
  split; [rewrite Ep, np2_pad_of by first [exact Hi|lia]; now rewrite EM, EN|].
  split; [unfold tf2_pad; rewrite Ep, Es, SP by first [assumption|lia]; now rewrite EM, EN|].
  split; [unfold torch2_pad; rewrite Ep, Es, SP by first [assumption|lia]; cbn [bind]; now rewrite EM, EN|].
  split; [apply of_imgs_wf, (imgs_ok_map _ (Z.to_nat M) (Z.to_nat N)); [intros; apply HL|exact Hi]|].
  split; [reflexivity|]. split; [reflexivity|].
  intros i u v Hi' Hu Hv.
  assert (Hpi : (i < prod [B])%nat) by (cbn; lia).
  rewrite block_of_imgs; [|apply (imgs_ok_map _ (Z.to_nat M) (Z.to_nat N)); [intros; apply HL|exact Hi]|exact Hpi].
  rewrite block_of_imgs by first [exact Hi|exact Hpi]. destruct Hi as [HB _]. cbn in HB. rewrite Nat.mul_1_r in HB.
  rewrite (nth_map_any _ _ _ _ []) by lia. unfold pad_img. rewrite EM, EN. rewrite iat_img by assumption.
  unfold t, l. rewrite !Z2Nat.id by lia. reflexivity.
Qed.
Print Assumptions C43_padding_agrees.
(** 2**J is the size of the image: the padding is the size of the image. *)
Example C43_instance : forall x : nd Z, nd_wf x -> nd_shape x = [1; 4; 5]%nat ->
  forall o, exists y, np2_pad o (4, 4, 3, 4) (4, 5) x = Ok y /\ tf2_pad o (4, 4, 3, 4) (4, 5) x = Ok y /\
    exists y', torch2_pad o (4, 4, 3, 4) (4, 5) x = Ok y' /\ nd_data y' = nd_data y.
Proof.
  intros x Hw Hs o. pose proof (C43_padding_agrees Z o 2 4 5 x 1%nat ltac:(lia) ltac:(lia) ltac:(lia) ltac:(lia) ltac:(lia) Hw Hs) as H.
  change (compute_padding 4 5 2) with (12, 12) in H. cbv iota beta zeta in H. change (pad_sizes 4 5 12 12) with (4, 4, 3, 4) in H. cbv iota beta zeta in H.
  destruct H as (y & E1 & E2 & E3 & _). exists y. split; [exact E1|]. split; [exact E2|]. eexists. split; [exact E3|]. reflexivity.
Qed.

(** C44. *)
Theorem C44_paths : forall p s pre x, 1 <= a_J p -> 0 <= a_L p -> 2 ^ a_J p <= a_M p -> 2 ^ a_J p <= a_N p -> a_pre_pad p = false -> 1 <= a_max_order p ->
  ScatteringNumPy2D p = Ok s -> image_batch p pre x -> a_out_type p = "list"%string ->
  exists ps, scattering2 np2 s x = Ok (List2 ps) /\
    (* indices: the zeroth order, the first orders by scale and angle, the pairs of increasing scale in lexicographic order *)
    (let J := Z.to_nat (a_J p) in let L := Z.to_nat (a_L p) in
     map r_n ps = [] :: map (fun n => [n]) (seq 0 (J * L)) ++
       (if a_max_order p <? 2 then [] else flat_map (fun n1 => map (fun n2 => [n1; n2]) (List.filter (fun n2 => Nat.ltb (n1 / L) (n2 / L)) (seq 0 (J * L)))) (seq 0 (J * L)))) /\
    NoDup (map r_n ps) /\
    (* scale and angle of every wavelet of a path *)
    (forall q, In q ps -> r_j q = map (fun n => Z.of_nat n / a_L p) (r_n q) /\ r_theta q = map (fun n => Z.of_nat n mod a_L p) (r_n q) /\
       Forall (fun j => 0 <= j < a_J p) (r_j q) /\ Forall (fun t => 0 <= t < a_L p) (r_theta q)) /\
    Z.of_nat (List.length ps) = 1 + a_L p * a_J p + (if a_max_order p <? 2 then 0 else a_L p ^ 2 * a_J p * (a_J p - 1) / 2).
Proof.
  intros p s pre x HJ HL HM HN Hpp Hmo Hs Hx Ho. assert (Hp : accepted2 p) by (split; [|split]; assumption). apply (numpy_new p Hp) in Hs. subst s.
  destruct (batch_images p pre x Hx Hpp) as (ims & -> & Hi). exists (outs2 p pre (padded_ims p ims)). split; [now apply numpy_list|].
  pose proof (keys_paths cops (Mp p) (Np p) (a_J p) (a_L p) (Mp p) (Np p) pre (padded_ims p ims) (a_max_order p)) as EK.
  change (all_paths _ _ _ _ _ _ _ _ _) with (outs2 p pre (padded_ims p ims)) in EK. set (ps := outs2 p pre (padded_ims p ims)) in *.
  assert (EN : map r_n ps = indices2 (Z.to_nat (a_J p)) (Z.to_nat (a_L p)) (a_max_order p)).
  { apply (f_equal (map (fun k => snd (fst k)))) in EK. rewrite !map_map in EK. cbn [key2 key_of fst snd] in EK. now rewrite map_id in EK. }
  split; [exact EN|]. split; [rewrite EN; apply NoDup_indices|]. split.
  - intros q Hq. assert (Hk : In (key2 q) (map key2 ps)) by now apply in_map. rewrite EK in Hk. apply in_map_iff in Hk as (ns & Ek & Hns).
    unfold key2, key_of in Ek. injection Ek as E1 E2 E3. rewrite <- E1, <- E2, <- E3.
    assert (Hin : Forall (fun n => (n < Z.to_nat (a_J p) * Z.to_nat (a_L p))%nat) ns).
    { unfold indices2 in Hns. destruct Hns as [<-|Hns]; [constructor|]. apply in_app_iff in Hns as [Hns|Hns].
      - apply in_map_iff in Hns as (n & <- & Hn). apply in_seq in Hn. repeat constructor. lia.
      - destruct (a_max_order p <? 2); [destruct Hns|]. apply second_spec in Hns as (n1 & n2 & -> & H1 & H2 & _). repeat constructor; assumption. }
    split; [apply map_ext; intros n; now rewrite Nat2Z.inj_div, Z2Nat.id by lia|].
    split; [apply map_ext; intros n; now rewrite Nat2Z.inj_mod, Z2Nat.id by lia|].
    split; apply Forall_map; eapply Forall_impl; [|exact Hin|idtac|exact Hin]; intros n Hn; cbn beta in Hn.
    + assert (Z.to_nat (a_L p) <> 0)%nat by nia. pose proof (Nat.div_lt_upper_bound n (Z.to_nat (a_L p)) (Z.to_nat (a_J p))). nia.
    + assert (Z.to_nat (a_L p) <> 0)%nat by nia. pose proof (Nat.mod_upper_bound n (Z.to_nat (a_L p))). lia.
  - rewrite <- (map_length r_n), EN, count2. destruct (a_max_order p <? 2); [nia|].
    pose proof (second_count (Z.to_nat (a_J p)) (Z.to_nat (a_L p))) as E. apply (f_equal Z.of_nat) in E.
    rewrite !Nat2Z.inj_mul, Nat2Z.inj_sub, !Z2Nat.id in E by lia.
    replace (a_L p ^ 2 * a_J p * (a_J p - 1)) with (Z.of_nat (List.length (second_indices (Z.to_nat (a_J p)) (Z.to_nat (a_L p)))) * 2) by (rewrite Z.pow_2_r; lia).
    rewrite Z.div_mul by lia. rewrite !Nat2Z.inj_add, Nat2Z.inj_mul, !Z2Nat.id by lia. lia.
Qed.
Print Assumptions C44_paths.
(** J = 2, L = 2: the keys in order. *)
Example C44_instance : forall x, nd_wf x -> nd_dtype x = Real -> nd_shape x = [4; 4]%nat ->
  exists s ps, ScatteringNumPy2D (mk_params2 2 4 4 2 2 false "list") = Ok s /\ scattering2 np2 s x = Ok (List2 ps) /\
    map r_n ps = [[]; [0]; [1]; [2]; [3]; [0; 2]; [0; 3]; [1; 2]; [1; 3]]%nat.
Proof.
  intros x Hw Hd Hs. set (p := mk_params2 2 4 4 2 2 false "list"). exists (npobj p).
  assert (Hn : ScatteringNumPy2D p = Ok (npobj p)) by (unfold ScatteringNumPy2D; rewrite new2_eval by (cbn; lia); reflexivity).
  destruct (C44_paths p (npobj p) [] x) as (ps & E & EN & _); try (cbn; lia); try reflexivity; try exact Hn; [repeat split; assumption|].
  exists ps. split; [exact Hn|]. split; [exact E|]. rewrite EN. reflexivity.
Qed.
(** Channels of the array output are the paths of the list output, in the same order. *)
Theorem C44_channels : forall p s s' pre x, 1 <= a_J p -> 2 ^ a_J p <= a_M p -> 2 ^ a_J p <= a_N p -> a_pre_pad p = false -> a_out_type p = "array"%string ->
  ScatteringNumPy2D p = Ok s -> ScatteringNumPy2D (mk_params2 (a_J p) (a_M p) (a_N p) (a_L p) (a_max_order p) false "list") = Ok s' -> image_batch p pre x ->
  exists y ps, scattering2 np2 s x = Ok (Array2 y) /\ scattering2 np2 s' x = Ok (List2 ps) /\
    let n := Z.to_nat (a_M p / 2 ^ a_J p * (a_N p / 2 ^ a_J p)) in
    nd_shape y = pre ++ [List.length ps; Z.to_nat (a_M p / 2 ^ a_J p); Z.to_nat (a_N p / 2 ^ a_J p)] /\
    forall b k q, (b < prod pre)%nat -> nth_error ps k = Some q -> block n (b * List.length ps + k) y = block n b (r_coef q).
Proof.
  intros p s s' pre x HJ HM HN Hpp Ho Hs Hs' Hx. assert (Hp : accepted2 p) by (split; [|split]; assumption). apply (numpy_new p Hp) in Hs. subst s.
  set (p' := mk_params2 (a_J p) (a_M p) (a_N p) (a_L p) (a_max_order p) false "list") in *. assert (Hp' : accepted2 p') by exact Hp. apply (numpy_new p' Hp') in Hs'. subst s'.
  destruct (batch_images p pre x Hx Hpp) as (ims & E & Hi). destruct (numpy_array p pre ims Hp Hi Ho) as (y & Ey & _ & _ & Sy & By).
  assert (EM : M_in p' = M_in p /\ N_in p' = N_in p) by (unfold M_in, N_in; rewrite Hpp; split; reflexivity). destruct EM as [EM EN].
  assert (Hi' : imgs_ok pre (M_in p') (N_in p') ims) by (rewrite EM, EN; exact Hi).
  exists y, (outs2 p' pre (padded_ims p' ims)). split; [rewrite E; exact Ey|]. split; [rewrite E, <- EM, <- EN; now apply numpy_list|].
  assert (Eo : outs2 p' pre (padded_ims p' ims) = outs2 p pre (padded_ims p ims)) by (unfold outs2, padded_ims; rewrite Hpp; reflexivity). rewrite Eo.
  cbv zeta. assert (0 < 2 ^ a_J p) by (apply Z.pow_pos_nonneg; lia).
  rewrite Z2Nat.inj_mul by (apply Z.div_pos; lia). split; [exact Sy|exact By].
Qed.
Print Assumptions C44_channels.
Example C44_channels_instance : forall x, nd_wf x -> nd_dtype x = Real -> nd_shape x = [3; 4; 4]%nat ->
  exists s s' y ps, ScatteringNumPy2D (mk_params2 2 4 4 2 2 false "array") = Ok s /\ ScatteringNumPy2D (mk_params2 2 4 4 2 2 false "list") = Ok s' /\
    scattering2 np2 s x = Ok (Array2 y) /\ scattering2 np2 s' x = Ok (List2 ps) /\
    forall q, nth_error ps 5 = Some q -> block 1 (1 * List.length ps + 5) y = block 1 1 (r_coef q).
Proof.
  intros x Hw Hd Hs. set (p := mk_params2 2 4 4 2 2 false "array"). set (p' := mk_params2 2 4 4 2 2 false "list"). exists (npobj p), (npobj p').
  assert (Hn : ScatteringNumPy2D p = Ok (npobj p)) by (unfold ScatteringNumPy2D; rewrite new2_eval by (cbn; lia); reflexivity).
  assert (Hn' : ScatteringNumPy2D p' = Ok (npobj p')) by (unfold ScatteringNumPy2D; rewrite new2_eval by (cbn; lia); reflexivity).
  destruct (C44_channels p (npobj p) (npobj p') [3%nat] x) as (y & ps & E & E' & _ & H); try (cbn; lia); try reflexivity; try assumption; [repeat split; assumption|].
  exists y, ps. split; [exact Hn|]. split; [exact Hn'|]. split; [exact E|]. split; [exact E'|]. intros q Hq. apply (H 1%nat 5%nat q); [cbn; lia|exact Hq].
Qed.

(** C45. *)
Theorem C45_total : forall p pre x, 1 <= a_J p -> 2 ^ a_J p <= a_M p -> 2 ^ a_J p <= a_N p -> a_pre_pad p = false ->
  a_out_type p = "array"%string \/ a_out_type p = "list"%string -> image_batch p pre x ->
  (exists s out, ScatteringNumPy2D p = Ok s /\ scattering2 np2 s x = Ok out) /\ (exists s out, ScatteringTensorFlow2D p = Ok s /\ scattering2 tf2 s x = Ok out).
Proof.
  intros p pre x HJ HM HN Hpp Ho Hx. assert (Hp : accepted2 p) by (split; [|split]; assumption).
  destruct (batch_images p pre x Hx Hpp) as (ims & -> & Hi). split.
  - exists (npobj p). destruct Ho as [Ho|Ho].
    + destruct (numpy_array p pre ims Hp Hi Ho) as (y & E & _). eexists. split; [|exact E]. unfold ScatteringNumPy2D. rewrite new2_eval by lia. reflexivity.
    + eexists. split; [|now apply numpy_list]. unfold ScatteringNumPy2D. rewrite new2_eval by lia. reflexivity.
  - exists (tfobj p). destruct Ho as [Ho|Ho].
    + destruct (tf_array p pre ims Hp Hi Hpp Ho) as (y & E & _). eexists. split; [|exact E]. unfold ScatteringTensorFlow2D. rewrite new2_eval by lia. reflexivity.
    + eexists. split; [|now apply tf_list]. unfold ScatteringTensorFlow2D. rewrite new2_eval by lia. reflexivity.
Qed.
Print Assumptions C45_total.
(** The largest accepted J: images of 8 x 11 pixels with J = 3, in a batch of shape (2, 3). *)
Example C45_instance : forall x, nd_wf x -> nd_dtype x = Real -> nd_shape x = [2; 3; 8; 11]%nat ->
  exists s out, ScatteringNumPy2D (mk_params2 3 8 11 8 2 false "array") = Ok s /\ scattering2 np2 s x = Ok out.
Proof. intros x Hw Hd Hs. apply (C45_total (mk_params2 3 8 11 8 2 false "array") [2; 3]%nat x); try (cbn; lia); try reflexivity; [now left|repeat split; assumption]. Qed.
(** With J = 0 there is no low-pass filter to look up: every call fails. *)
Theorem C45_J0 : forall p s pre x, a_J p = 0 -> 1 <= a_M p -> 1 <= a_N p -> a_pre_pad p = false ->
  a_out_type p = "array"%string \/ a_out_type p = "list"%string -> ScatteringNumPy2D p = Ok s -> image_batch p pre x -> scattering2 np2 s x = Err IndexError.
Proof.
  intros p s pre x HJ HM HN Hpp Ho Hs (Hw & Hd & Hsh). destruct (of_imgs_intro x pre _ _ Hw Hsh) as (ims & E & Hi). rewrite Hd in E. subst x.
  unfold ScatteringNumPy2D in Hs. rewrite new2_eval in Hs by (rewrite ?HJ; cbn; lia). injection Hs as <-. rewrite Hpp.
  cbn [b2_Pad numpy_backend2]. set (M := Z.to_nat (a_M p)) in *. set (N := Z.to_nat (a_N p)) in *. unfold scattering2.
  assert (HM0 : (0 < M)%nat) by (unfold M; lia). assert (HN0 : (0 < N)%nat) by (unfold N; lia).
  match goal with |- context [check2 ?a ?b ?c] => assert (Hc : check2 a b c = Ok tt) end.
  { unfold check2. cbn [b2_shape numpy_backend2 of_imgs nd_shape]. rewrite split_last2_app. cbn [bind c_args object2]. rewrite Hpp.
    unfold M, N. rewrite !Z2Nat.id by lia. rewrite !Z.eqb_refl. cbn [negb orb andb raise_if bind]. rewrite andb_false_r.
    destruct Ho as [-> | ->]; reflexivity. }
  rewrite Hc. cbn [bind b2_shape numpy_backend2 of_imgs nd_shape]. rewrite batch_signal_app. cbn [b2_reshape_infer numpy_backend2].
  pose proof (input_flat np2 usual2_numpy M N pre Real ims ltac:(lia) ltac:(lia)) as Ef. cbn [b2_reshape_infer numpy_backend2] in Ef.
  change (mk_nd Real (pre ++ [M; N]) (concat ims)) with (of_imgs Real pre M N ims). rewrite Ef. cbn [bind]. unfold scattering2d, paths2. cbn [c_pad object2 c_args].
  unfold pads2, pad_sizes. assert (EPM : padded_size (a_M p) (a_J p) = a_M p + 2) by (rewrite HJ; unfold padded_size; cbn [Z.pow]; rewrite Z.div_1_r; lia).
  assert (EPN : padded_size (a_N p) (a_J p) = a_N p + 2) by (rewrite HJ; unfold padded_size; cbn [Z.pow]; rewrite Z.div_1_r; lia).
  rewrite EPM, EPN. replace (a_M p + 2 - a_M p) with 2 by lia. replace (a_N p + 2 - a_N p) with 2 by lia.
  change (2 / 2) with (Z.of_nat 1). change ((2 + 1) / 2) with (Z.of_nat 1).
  rewrite (np2_pad_of cops (prod pre) M N ims) by first [apply flat_ok; exact Hi|lia]. cbn [bind b2_rfft numpy_backend2].
  rewrite np2_rfft_of; [|apply (imgs_ok_map _ M N); [intros im _; apply img_length|now apply flat_ok]|lia|lia]. cbn [bind].
  unfold lowpass2. cbn [c_phi object2]. unfold bank2. rewrite HJ. reflexivity.
  all: assumption.
Qed.
Print Assumptions C45_J0.
Example C45_J0_instance : forall x, nd_wf x -> nd_dtype x = Real -> nd_shape x = [8; 8]%nat ->
  exists s, ScatteringNumPy2D (mk_params2 0 8 8 8 2 false "array") = Ok s /\ scattering2 np2 s x = Err IndexError.
Proof.
  intros x Hw Hd Hs. set (p := mk_params2 0 8 8 8 2 false "array").
  assert (Hn : ScatteringNumPy2D p = Ok (npobj p)) by (unfold ScatteringNumPy2D; rewrite new2_eval by (cbn; lia); reflexivity).
  exists (npobj p). split; [exact Hn|]. apply (C45_J0 p (npobj p) [] x); try (cbn; lia); try reflexivity; try exact Hn; [now left|repeat split; assumption].
Qed.

(** C47. *)
(** Input of shape (batch, m, n), max_order = 2 and no pre_pad; missing: any other rank, max_order or pre_pad=True (see the refutations). *)
Theorem C47_keras_shape_partial : forall k x B m n, 1 <= ke_J k -> 0 <= ke_L k -> 2 ^ ke_J k <= Z.of_nat m -> 2 ^ ke_J k <= Z.of_nat n ->
  ke_max_order k = 2 -> ke_pre_pad k = false -> nd_wf x -> nd_dtype x = Real -> nd_shape x = [B; m; n] ->
  exists y, keras_call2 k x = Ok (Array2 y) /\ keras_output_shape2 k (nd_shape x) = Ok (map Z.of_nat (nd_shape y)).
Proof.
  intros k x B m n HJ HL HM HN Hmo Hpp Hw Hd Hs. unfold keras_call2, keras_build2, keras_output_shape2. rewrite Hs.
  change (split_last2 [B; m; n]) with (Ok ([B], m, n)). cbn [bind].
  set (p := mk_params2 (ke_J k) (Z.of_nat m) (Z.of_nat n) (ke_L k) (ke_max_order k) (ke_pre_pad k) "array").
  assert (Hp : accepted2 p) by (split; [|split]; assumption).
  assert (En : ScatteringTensorFlow2D p = Ok (tfobj p)) by (unfold ScatteringTensorFlow2D; rewrite new2_eval by (cbn; lia); reflexivity).
  rewrite En. cbn [bind].
  destruct (batch_images p [B] x) as (ims & E & Hi); [|exact Hpp|].
  { repeat split; try assumption. rewrite Hs. cbn [p a_M a_N]. now rewrite !Nat2Z.id. }
  destruct (tf_array p [B] ims Hp Hi Hpp eq_refl) as (y & Ey & _ & _ & Sy & _). exists y. rewrite E. split; [exact Ey|]. rewrite Sy.
  cbn [app map]. change (py_index [B; m; n] 0) with (Ok B). cbn [bind]. do 3 f_equal.
  - pose proof (keys_paths cops (Mp p) (Np p) (a_J p) (a_L p) (Mp p) (Np p) [B] (padded_ims p ims) (a_max_order p)) as EK.
    change (all_paths _ _ _ _ _ _ _ _ _) with (outs2 p [B] (padded_ims p ims)) in EK. apply (f_equal (@List.length _)) in EK. rewrite !map_length in EK. rewrite EK, count2.
    cbn [p a_J a_L a_max_order]. rewrite Hmo. change (2 <? 2) with false. cbv iota.
    pose proof (second_count (Z.to_nat (ke_J k)) (Z.to_nat (ke_L k))) as E2. apply (f_equal Z.of_nat) in E2.
    rewrite !Nat2Z.inj_mul, Nat2Z.inj_sub, !Z2Nat.id in E2 by lia.
    replace (ke_L k ^ 2 * ke_J k * (ke_J k - 1)) with (Z.of_nat (List.length (second_indices (Z.to_nat (ke_J k)) (Z.to_nat (ke_L k)))) * 2) by (rewrite Z.pow_2_r; lia).
    rewrite Z.div_mul by lia. rewrite !Nat2Z.inj_add, Nat2Z.inj_mul, !Z2Nat.id by lia. lia.
  - unfold m2, n2. cbn [p a_M a_N a_J]. assert (0 < 2 ^ ke_J k) by (apply Z.pow_pos_nonneg; lia). rewrite !Z2Nat.id by (apply Z.div_pos; lia). reflexivity.
Qed.
Print Assumptions C47_keras_shape_partial.
Example C47_instance : forall x, nd_wf x -> nd_dtype x = Real -> nd_shape x = [10; 32; 30]%nat ->
  exists y, keras_call2 (mk_keras2 3 8 2 false) x = Ok (Array2 y) /\ map Z.of_nat (nd_shape y) = [10; 217; 4; 3].
Proof.
  intros x Hw Hd Hs. destruct (C47_keras_shape_partial (mk_keras2 3 8 2 false) x 10 32 30) as (y & E1 & E2); try (cbn; lia); try assumption; try reflexivity.
  exists y. split; [exact E1|]. rewrite Hs in E2. injection E2 as E2. rewrite <- E2. reflexivity.
Qed.
(** max_order is ignored: with max_order = 1 the announced number of channels is wrong as soon as there are second-order paths. *)
Theorem C47_max_order_refuted : forall k x B m n, 2 <= ke_J k -> 1 <= ke_L k -> 2 ^ ke_J k <= Z.of_nat m -> 2 ^ ke_J k <= Z.of_nat n ->
  ke_max_order k = 1 -> ke_pre_pad k = false -> nd_wf x -> nd_dtype x = Real -> nd_shape x = [B; m; n] ->
  exists y, keras_call2 k x = Ok (Array2 y) /\ keras_output_shape2 k (nd_shape x) <> Ok (map Z.of_nat (nd_shape y)).
Proof.
  intros k x B m n HJ HL HM HN Hmo Hpp Hw Hd Hs. unfold keras_call2, keras_build2, keras_output_shape2. rewrite Hs.
  change (split_last2 [B; m; n]) with (Ok ([B], m, n)). cbn [bind].
  set (p := mk_params2 (ke_J k) (Z.of_nat m) (Z.of_nat n) (ke_L k) (ke_max_order k) (ke_pre_pad k) "array").
  assert (Hp : accepted2 p) by (split; [cbn; lia|split; assumption]).
  assert (En : ScatteringTensorFlow2D p = Ok (tfobj p)) by (unfold ScatteringTensorFlow2D; rewrite new2_eval by (cbn; lia); reflexivity).
  rewrite En. cbn [bind].
  destruct (batch_images p [B] x) as (ims & E & Hi); [|exact Hpp|].
  { repeat split; try assumption. rewrite Hs. cbn [p a_M a_N]. now rewrite !Nat2Z.id. }
  destruct (tf_array p [B] ims Hp Hi Hpp eq_refl) as (y & Ey & _ & _ & Sy & _). exists y. rewrite E. split; [exact Ey|]. rewrite Sy.
  cbn [app map]. change (py_index [B; m; n] 0) with (Ok B). cbn [bind]. intros Heq.
  pose proof (f_equal (fun r => match r with Ok (_ :: c :: _) => c | _ => 0 end) Heq) as Hc. cbv beta iota in Hc.
  pose proof (keys_paths cops (Mp p) (Np p) (a_J p) (a_L p) (Mp p) (Np p) [B] (padded_ims p ims) (a_max_order p)) as EK.
  change (all_paths _ _ _ _ _ _ _ _ _) with (outs2 p [B] (padded_ims p ims)) in EK. apply (f_equal (@List.length _)) in EK. rewrite !map_length in EK. rewrite EK, count2 in Hc.
  cbn [p a_J a_L a_max_order] in Hc. rewrite Hmo in Hc. change (1 <? 2) with true in Hc. cbv iota in Hc.
  rewrite !Nat2Z.inj_add, Nat2Z.inj_mul, !Z2Nat.id in Hc by lia.
  assert (1 <= ke_L k ^ 2 * ke_J k * (ke_J k - 1) / 2) by (apply Z.div_le_lower_bound; [lia|]; rewrite Z.pow_2_r; nia). nia.
Qed.
Print Assumptions C47_max_order_refuted.
(** With more than one batch axis the announced shape has the wrong number of axes. *)
Theorem C47_rank_refuted : forall k x A B m n, 1 <= ke_J k -> 0 <= ke_L k -> 2 ^ ke_J k <= Z.of_nat m -> 2 ^ ke_J k <= Z.of_nat n ->
  ke_pre_pad k = false -> nd_wf x -> nd_dtype x = Real -> nd_shape x = [A; B; m; n] ->
  exists y s, keras_call2 k x = Ok (Array2 y) /\ keras_output_shape2 k (nd_shape x) = Ok s /\ List.length s = 4%nat /\ List.length (nd_shape y) = 5%nat.
Proof.
  intros k x A B m n HJ HL HM HN Hpp Hw Hd Hs. unfold keras_call2, keras_build2, keras_output_shape2. rewrite Hs.
  change (split_last2 [A; B; m; n]) with (Ok ([A; B], m, n)). cbn [bind].
  set (p := mk_params2 (ke_J k) (Z.of_nat m) (Z.of_nat n) (ke_L k) (ke_max_order k) (ke_pre_pad k) "array").
  assert (Hp : accepted2 p) by (split; [|split]; assumption).
  assert (En : ScatteringTensorFlow2D p = Ok (tfobj p)) by (unfold ScatteringTensorFlow2D; rewrite new2_eval by (cbn; lia); reflexivity).
  rewrite En. cbn [bind].
  destruct (batch_images p [A; B] x) as (ims & E & Hi); [|exact Hpp|].
  { repeat split; try assumption. rewrite Hs. cbn [p a_M a_N]. now rewrite !Nat2Z.id. }
  destruct (tf_array p [A; B] ims Hp Hi Hpp eq_refl) as (y & Ey & _ & _ & Sy & _). exists y. rewrite E. eexists. split; [exact Ey|]. rewrite Sy. repeat split.
Qed.
Print Assumptions C47_rank_refuted.
(** pre_pad=True: every call fails, so nothing announced is right. *)
Theorem C47_pre_pad_refuted : forall k x m n pre, 0 <= ke_J k -> ke_pre_pad k = true -> 2 ^ ke_J k <= Z.of_nat m -> 2 ^ ke_J k <= Z.of_nat n ->
  nd_shape x = pre ++ [m; n] -> keras_call2 k x = Err RuntimeError.
Proof.
  intros k x m n pre HJ Hpp HM HN Hs. unfold keras_call2, keras_build2. rewrite Hs, split_last2_app. cbn [bind].
  unfold ScatteringTensorFlow2D. rewrite new2_eval by (cbn; lia). cbn [bind]. unfold scattering2, check2. cbn [b2_shape tf_backend2]. rewrite Hs, split_last2_app. cbn [bind].
  cbn [c_args object2 a_pre_pad a_M a_N c_N_padded c_M_padded a_J]. rewrite Hpp. cbn [negb]. rewrite !andb_false_r, !andb_true_r. cbn [raise_if bind].
  destruct (padded_total (Z.of_nat n) (ke_J k) HJ) as [_ E]. assert (H : 0 < 2 ^ ke_J k) by (apply Z.pow_pos_nonneg; lia).
  pose proof (Z.mod_pos_bound (Z.of_nat n) (2 ^ ke_J k) H).
  destruct (Z.eqb_spec (Z.of_nat n) (padded_size (Z.of_nat n) (ke_J k))); [lia|]. reflexivity.
Qed.
Print Assumptions C47_pre_pad_refuted.
