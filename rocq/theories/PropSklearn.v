(** Property C57: predict of the scikit-learn transformers. *)
From Coq Require Import String Reals ZArith QArith List Bool Arith Lia Lra.
From Coquelicot Require Import Complex.
From Verif Require Import Base BaseProofs NdArray Backend NdProofs ComplexOps Utils1d Spec1d Core1d Core1dProofs Frontend1d Frontend1dProofs FrontRows Rows1d FilterBank1d Factory1d Construct1d PropFilters1d PropShapes1d
  PropPaths1d Utils1dProofs StackProofs Backend2d Core2d FilterBank2d Frontend2d Images Eval2d Value2d Keys2d Path2d PropShapes2d PropValues2d PropErrors2d Core3d FilterBank3d Frontend3d Rows3d Eval3d Path3d PropScat3d
  Jtfs JtfsFront JtfsConstruct JtfsParts PropJtfsValues PropJtfsRuns PropJtfsBatch Sklearn.
Import ListNotations.
Local Open Scope nat_scope.
Local Open Scope res_scope.

Lemma removelast_snoc {A} (l : list A) a : removelast (l ++ [a]) = l.
Proof. apply removelast_last. Qed.

(** The samples of a batch, one after the other, are handed over, and the result is cut where the samples end. *)
Lemma predict_flat (shape batch os : list nat) (scattering : nd C -> res (nd C)) (x z : nd C) :
  0 < prod shape -> nd_shape x = batch ++ [prod shape] -> 0 < prod batch ->
  scattering (mk_nd (nd_dtype x) (prod batch :: shape) (nd_data x)) = Ok z -> nd_shape z = prod batch :: os ->
  predict shape scattering x = Ok (mk_nd (nd_dtype z) (batch ++ [prod os]) (nd_data z)).
Proof.
  intros Hp Hx Hb Hz Sz. unfold predict, reshape_infer. rewrite Hx, removelast_last, prod_app. cbn [prod fold_right].
  rewrite Nat.mul_1_r. destruct (Nat.eqb_spec (prod shape) 0); [lia|]. rewrite Nat.mod_mul by lia. cbn [Nat.eqb bind]. rewrite Nat.div_mul by lia.
  rewrite Hz. cbn [bind]. unfold reshape_rest. rewrite Sz. destruct (Nat.eqb_spec (prod batch) 0); [lia|].
  change (prod (prod batch :: os)) with (prod batch * prod os). rewrite (Nat.mul_comm (prod batch)), Nat.mod_mul, Nat.div_mul by lia. reflexivity.
Qed.

(** ** C57: samples are never mixed and the batch shape is kept *)
Theorem C57_predict_1d_partial : forall support p s N batch x l,
  (forall n t, (0 <= support n t)%Z) -> Scattering1D support p "array" = Ok s ->
  N_input_of (p_shape p) = Ok N -> (1 <= N)%Z -> (0 <= p_J p)%Z -> (1 <= p_max_order p <= 2)%Z -> s_average s <> Ok NoAvg ->
  nd_wf x -> nd_dtype x = Real -> nd_shape x = batch ++ [Z.to_nat N] -> 0 < prod batch ->
  scattering np (with_out s "list") x = Ok (OutList l) ->
  exists y K, predict [Z.to_nat N] (fun x => array_of (scattering np s x)) x = Ok y /\ nd_wf y /\ nd_shape y = batch ++ [K] /\
  forall i, i < prod batch ->
    exists z, scattering np s (mk_nd Real [Z.to_nat N] (firstn (Z.to_nat N) (skipn (i * Z.to_nat N) (nd_data x)))) = Ok (OutArray z) /\
      firstn K (skipn (i * K) (nd_data y)) = nd_data z.
Proof.
  intros support p s N batch x l Hsup H EN HN HJ Hmo Hna Hw Hd Hsh Hb Hrun. set (n := Z.to_nat N) in *. assert (Hn : 0 < n) by lia.
  assert (Eo : with_out s "array" = s).
  { pose proof H as H'. apply new_inv in H'. destruct H' as (b & Qs & T & l2 & phi & psi1s & psi2s & H'). destruct H' as (_ & _ & _ & _ & _ & _ & ->). reflexivity. }
  destruct (C22_batch_independence _ _ _ _ _ _ _ _ Hsup H EN HN HJ Hmo Hw Hsh Hrun) as [_ H2].
  set (B := prod batch) in *. assert (EB : prod [B] = B) by (cbn; lia).
  destruct (H2 [B] EB Hb) as (l1 & R1 & _). fold n in R1. set (xr := mk_nd Real ([B] ++ [n]) (nd_data x)) in *.
  assert (Hwr : nd_wf xr). { unfold nd_wf in *. cbn [xr nd_data nd_shape]. rewrite Hw, Hsh, prod_app. cbn. fold B. lia. }
  destruct (C17_numpy_channels _ _ _ _ _ [B] xr l1 Hsup H EN HN HJ Hmo Hwr eq_refl ltac:(lia) Hna R1) as (y & L & Ry & Dy & Wy & Sy & Vy). rewrite Eo in Ry.
  set (k := List.length l1) in *.
  exists (mk_nd (nd_dtype y) (batch ++ [prod [k; L]]) (nd_data y)), (k * L). assert (Ep : prod [k; L] = k * L) by (cbn; lia). split; [|split; [|split]].
  - apply predict_flat; cbn [prod fold_right]; [lia|now rewrite Nat.mul_1_r| exact Hb| |exact Sy]. rewrite Hd. unfold xr in Ry. cbn [app] in Ry. fold B. now rewrite Ry.
  - unfold nd_wf in *. cbn [nd_data nd_shape]. rewrite Wy, Sy, !prod_app. cbn. fold B. lia.
  - cbn [nd_shape]. now rewrite Ep.
  - intros i Hi. cbn [nd_data].
    destruct (C22_batch_independence _ _ _ _ _ _ _ _ Hsup H EN HN HJ Hmo Hwr eq_refl R1) as [H1 _].
    destruct (H1 i ltac:(lia)) as (li & Ri & Fi). change (signal (Z.to_nat N) i xr) with (firstn n (skipn (i * n) (nd_data x))) in Ri. fold n in Ri.
    set (xi := mk_nd Real [n] (firstn n (skipn (i * n) (nd_data x)))) in *.
    assert (Hwi : nd_wf xi).
    { unfold nd_wf in *. cbn [xi nd_data nd_shape]. rewrite firstn_length, skipn_length, Hw, Hsh, prod_app. fold B. cbn. nia. }
    destruct (C17_numpy_channels _ _ _ _ _ [] xi li Hsup H EN HN HJ Hmo Hwi eq_refl ltac:(cbn; lia) Hna Ri) as (z & Lz & Rz & Dz & Wz & Sz & Vz). rewrite Eo in Rz.
    exists z. split; [exact Rz|]. assert (Ek : List.length li = k) by (unfold k; clear - Fi; induction Fi; cbn; congruence).
    rewrite Ek in *.
    destruct (Nat.eq_dec k 0) as [E0|Hk].
    { rewrite E0. cbn [Nat.mul firstn]. unfold nd_wf in Wz. rewrite Sz, E0 in Wz. cbn in Wz. destruct (nd_data z); [reflexivity|discriminate]. }
    assert (EL : Lz = L).
    { destruct l1 as [|q l1']; [contradiction Hk; reflexivity|]. destruct li as [|qi li']; [cbn in Ek; unfold k in Ek; discriminate|].
      inversion Fi as [|? ? ? ? (_ & L0 & A1 & A2 & A3) _]; subst. destruct (Vy 0 q eq_refl) as [B1 _]. destruct (Vz 0 qi eq_refl) as [B2 _].
      rewrite A1 in B1. rewrite A2 in B2. apply app_inv_head in B1. cbn in B2. congruence. }
    subst Lz. apply sample_eq; [unfold nd_wf in Wz; rewrite Wz, Sz; cbn; lia|].
    intros c Hc. destruct (nth_error l1 c) as [q|] eqn:Eq; [|apply nth_error_None in Eq; fold k in Eq; lia].
    assert (exists qi, nth_error li c = Some qi /\ exists L0, nd_shape (p_coef q) = [B] ++ [L0] /\ nd_shape (p_coef qi) = [L0] /\ nd_data (p_coef qi) = signal L0 i (p_coef q)) as (qi & Eqi & L0 & A1 & A2 & A3).
    { clear - Fi Eq. revert c Eq. induction Fi as [|a b la lb (_ & Hab) _ IH]; intros [|c] Eq; try discriminate.
      - injection Eq as <-. exists b. split; [reflexivity|exact Hab].
      - apply IH. exact Eq. }
    destruct (Vy c q Eq) as [B1 B2]. destruct (Vz c qi Eqi) as [B3 B4]. rewrite A2 in B3. cbn in B3. injection B3 as ->.
    specialize (B2 i ltac:(lia)). specialize (B4 0 ltac:(cbn; lia)). unfold signal in B2, B4. cbn [Nat.mul Nat.add skipn] in B4. fold k in B2. rewrite B2, B4.
    rewrite A3. unfold signal. symmetry. rewrite firstn_firstn, Nat.min_id. reflexivity.
Qed.
Print Assumptions C57_predict_1d_partial.

(** Images: self.shape is (M, N). *)
Theorem C57_predict_2d_partial : forall p s batch x, (1 <= a_J p)%Z -> (2 ^ a_J p <= a_M p)%Z -> (2 ^ a_J p <= a_N p)%Z ->
  a_pre_pad p = false -> a_out_type p = "array"%string -> ScatteringNumPy2D p = Ok s ->
  let M := Z.to_nat (a_M p) in let N := Z.to_nat (a_N p) in
  nd_wf x -> nd_dtype x = Real -> nd_shape x = batch ++ [M * N] -> 0 < prod batch ->
  exists y K, predict [M; N] (fun x => array_of2 (scattering2 np2 s x)) x = Ok y /\ nd_wf y /\ nd_shape y = batch ++ [K] /\
  forall i, i < prod batch ->
    exists z, scattering2 np2 s (mk_nd Real [M; N] (firstn (M * N) (skipn (i * (M * N)) (nd_data x)))) = Ok (Array2 z) /\
      firstn K (skipn (i * K) (nd_data y)) = nd_data z.
Proof.
  intros p s batch x HJ HM HN Hpp Ho Hs M N Hw Hd Hsh Hb. assert (Hp : valid2 p) by (split; [|split]; assumption).
  apply (numpy_new p Hp) in Hs. subst s. set (B := prod batch) in *.
  assert (0 < 2 ^ a_J p)%Z by (apply Z.pow_pos_nonneg; lia). assert (PM : 0 < M) by (unfold M; lia). assert (PN : 0 < N) by (unfold N; lia). assert (P0 : 0 < M * N) by nia.
  assert (EM : in_M p = M) by (unfold in_M; now rewrite Hpp). assert (EN : in_N p = N) by (unfold in_N; now rewrite Hpp).
  set (xr := mk_nd Real ([B] ++ [M; N]) (nd_data x)).
  assert (Hr : batch2 p [B] xr).
  { split; [|split; [reflexivity|cbn [xr nd_shape]; now rewrite EM, EN]]. unfold nd_wf in *. cbn [xr nd_data nd_shape]. rewrite Hw, Hsh, !prod_app. fold B. cbn. nia. }
  destruct (paths_of p [B] xr Hp Hr) as (ims & Ex & Hi & Kx & Hx). cbv zeta in Kx, Hx.
  destruct (numpy_array p [B] ims Hp Hi Ho) as (y & Ry & Dy & Wy & Sy & Vy). rewrite <- Ex in Ry.
  set (ps := outs2 p [B] (padded_ims p ims)) in *. set (k := List.length ps) in *. set (L := m2 p * n2 p) in *.
  exists (mk_nd (nd_dtype y) (batch ++ [prod [k; m2 p; n2 p]]) (nd_data y)), (k * L).
  assert (Ep : prod [k; m2 p; n2 p] = k * L) by (unfold L; cbn; lia). split; [|split; [|split]].
  - apply predict_flat; [cbn; nia| |exact Hb| |exact Sy].
    + rewrite Hsh. do 3 f_equal. cbn. lia.
    + rewrite Hd. fold B. change (mk_nd Real (B :: [M; N]) (nd_data x)) with xr. now rewrite Ry.
  - unfold nd_wf in *. cbn [nd_data nd_shape]. rewrite Wy, Sy, !prod_app. fold B. cbn. lia.
  - cbn [nd_shape]. now rewrite Ep.
  - intros i Hib. cbn [nd_data]. set (xi := mk_nd Real [M; N] (firstn (M * N) (skipn (i * (M * N)) (nd_data x)))).
    assert (Hxi : batch2 p [] xi).
    { split; [|split; [reflexivity|cbn [xi nd_shape]; now rewrite EM, EN]]. unfold nd_wf in *. cbn [xi nd_data nd_shape].
      rewrite firstn_length, skipn_length, Hw, Hsh, !prod_app. fold B. cbn. nia. }
    destruct (paths_of p [] xi Hp Hxi) as (imi & Exi & Hii & Kxi & Hxxi). cbv zeta in Kxi, Hxxi.
    destruct (numpy_array p [] imi Hp Hii Ho) as (z & Rz & Dz & Wz & Sz & Vz). rewrite <- Exi in Rz.
    set (psi := outs2 p [] (padded_ims p imi)) in *.
    assert (EK : map key2 psi = map key2 ps) by now rewrite Kx, Kxi.
    assert (Ek : List.length psi = k) by (unfold k; rewrite <- (map_length key2 psi), <- (map_length key2 ps); now rewrite EK).
    rewrite Ek in Sz, Vz. exists z. split; [exact Rz|]. apply sample_eq; [unfold nd_wf in Wz; rewrite Wz, Sz; unfold L; cbn; lia|].
    intros c Hc. destruct (nth_error ps c) as [q|] eqn:Eq; [|apply nth_error_None in Eq; fold k in Eq; lia].
    destruct (nth_error psi c) as [qi|] eqn:Eqi; [|apply nth_error_None in Eqi; lia].
    assert (Eki : key2 qi = key2 q).
    { apply (f_equal (fun l => nth_error l c)) in EK. rewrite !nth_error_map, Eq, Eqi in EK. cbn in EK. congruence. }
    unfold key2 in Eki. injection Eki as E1 E2 E3.
    destruct (Hx q (nth_error_In _ _ Eq)) as (_ & _ & _ & _ & Cq). destruct (Hxxi qi (nth_error_In _ _ Eqi)) as (_ & _ & _ & _ & Cqi).
    specialize (Vy i c q ltac:(cbn; lia) Eq). specialize (Vz 0 c qi ltac:(cbn; lia) Eqi). specialize (Cq i ltac:(cbn; lia)). specialize (Cqi 0 ltac:(cbn; lia)).
    unfold block in Vy, Vz. cbn [Nat.mul Nat.add] in Vz. fold k in Vy. fold L in Vy, Vz. rewrite Vy, Vz.
    change (coef p i q = value2 (padded_M p) (padded_N p) (a_J p) (a_L p) (r_j q) (r_theta q) (padded p (image p i xr))) in Cq.
    assert (EI : image p 0 xi = image p i xr).
    { unfold image, block. rewrite EM, EN. cbn [xi xr nd_data Nat.mul skipn]. rewrite firstn_firstn, Nat.min_id. reflexivity. }
    assert (EL : out_M p * out_N p = L) by reflexivity.
    unfold coef, block in Cq, Cqi. rewrite EL in Cq, Cqi. rewrite Cq, EI in *. cbn [Nat.mul skipn] in Cqi |- *. rewrite Cqi. now rewrite E1, E3.
Qed.
Print Assumptions C57_predict_2d_partial.

(** Volumes: self.shape is (M, N, O). *)
Theorem C57_predict_3d_partial : forall p F g batch x, valid3 p -> bank_of p F -> (h_max_order p = 1 \/ h_max_order p = 2)%Z ->
  let M := Z.to_nat (h_M p) in let N := Z.to_nat (h_N p) in let O := Z.to_nat (h_O p) in let V := M * N * O in
  nd_wf x -> nd_dtype x = Real -> nd_shape x = batch ++ [V] -> 0 < prod batch ->
  exists y K, predict [M; N; O] (numpy_scattering3 (mk_scat3 p F g)) x = Ok y /\ nd_wf y /\ nd_shape y = batch ++ [K] /\
  forall i, i < prod batch ->
    exists z, numpy_scattering3 (mk_scat3 p F g) (mk_nd Real [M; N; O] (firstn V (skipn (i * V) (nd_data x)))) = Ok z /\
      firstn K (skipn (i * K) (nd_data y)) = nd_data z.
Proof.
  intros p F g batch x Hv HF Hmo M N O V Hw Hd Hsh Hb. pose proof (valid3_sizes p Hv) as (_ & _ & _ & HM & HN & HO). fold M N O in HM, HN, HO.
  assert (P0 : 0 < V) by (unfold V; nia). set (B := prod batch) in *. set (xr := mk_nd Real ([B] ++ [M; N; O]) (nd_data x)).
  assert (EV : V = M * (N * O)) by (unfold V; ring).
  assert (Hr : input3 p [B] xr).
  { split; [|split; [reflexivity|split; [reflexivity|cbn; lia]]]. unfold nd_wf in *. cbn [xr nd_data nd_shape]. rewrite Hw, Hsh, !prod_app. fold B. cbn. nia. }
  pose proof (runs3_of numpy_scattering3 p F g [B] xr (or_introl eq_refl) Hv HF Hr) as Ry. set (y := out3 p F _ _ _ [B] xr) in *.
  assert (Wy : nd_wf y) by now apply out_wf.
  set (k := n_paths (h_J p) (h_max_order p)). set (L1 := Z.to_nat (h_L p + 1)). set (nq := List.length (h_integral_powers p)).
  assert (Sy : nd_shape y = B :: [k; L1; nq]). { unfold y, out3. cbn [nd_shape app]. rewrite paths3_length by (apply Hv). reflexivity. }
  exists (mk_nd (nd_dtype y) (batch ++ [prod [k; L1; nq]]) (nd_data y)), (k * (L1 * nq)).
  assert (Ep : prod [k; L1; nq] = k * (L1 * nq)) by (cbn; lia). split; [|split; [|split]].
  - apply predict_flat; [cbn; nia| |exact Hb| |exact Sy].
    + rewrite Hsh. do 3 f_equal. unfold V. cbn. lia.
    + rewrite Hd. exact Ry.
  - unfold nd_wf in *. cbn [nd_data nd_shape]. rewrite Wy, Sy, !prod_app. fold B. cbn. lia.
  - cbn [nd_shape]. now rewrite Ep.
  - intros i Hi. cbn [nd_data]. set (xi := mk_nd Real [M; N; O] (firstn V (skipn (i * V) (nd_data x)))).
    assert (Hxi : input3 p [] xi).
    { split; [|split; [reflexivity|split; [reflexivity|cbn; lia]]]. unfold nd_wf in *. cbn [xi nd_data nd_shape]. rewrite firstn_length, skipn_length, Hw, Hsh, !prod_app. fold B. cbn. nia. }
    pose proof (runs3_of numpy_scattering3 p F g [] xi (or_introl eq_refl) Hv HF Hxi) as Rz. eexists. split; [exact Rz|].
    unfold y, out3. cbn [nd_data]. cbn [prod fold_right Nat.mul Nat.add seq map concat]. rewrite app_nil_r, Nat.add_0_r || rewrite app_nil_r.
    pose (G := coefs3 M N O (h_rotation_covariant p) F (h_L p) (h_J p) (h_integral_powers p) (h_max_order p)).
    assert (HG : forall v, List.length (G v) = k * (L1 * nq)) by (intros v; apply (coefs_len p F Hv)).
    change (firstn (k * (L1 * nq)) (skipn (i * (k * (L1 * nq))) (concat (map (fun b => G (volume M N O b xr)) (seq 0 (B * 1))))) = G (volume M N O 0 xi)).
    clearbody G. rewrite firstn_skipn_concat; [|apply Forall_map, Forall_forall; intros; apply HG].
    rewrite (nth_map_any _ _ _ _ 0) by (rewrite seq_length; lia). rewrite seq_nth by lia. f_equal.
    unfold volume, block. rewrite <- EV. cbn [Nat.add xr xi nd_data Nat.mul skipn]. rewrite firstn_firstn, Nat.min_id. reflexivity.
Qed.
Print Assumptions C57_predict_3d_partial.

(** Joint time-frequency scattering, in the format 'joint' or 'time': self.shape is (N,). *)
Theorem C57_predict_jtfs_partial : forall support p t N batch x y0,
  jconstructed support p "array" t N -> nd_wf x -> nd_dtype x = Real -> nd_shape x = batch ++ [Z.to_nat N] -> 0 < prod batch ->
  jtfs_scattering np sgnR t x = Ok (JArray y0) ->
  exists y K, predict [Z.to_nat N] (fun x => array_of_j (jtfs_scattering np sgnR t x)) x = Ok y /\ nd_wf y /\ nd_shape y = batch ++ [K] /\
  forall i, i < prod batch ->
    exists z, jtfs_scattering np sgnR t (mk_nd Real [Z.to_nat N] (firstn (Z.to_nat N) (skipn (i * Z.to_nat N) (nd_data x)))) = Ok (JArray z) /\
      firstn K (skipn (i * K) (nd_data y)) = nd_data z.
Proof.
  intros support p t N batch x y0 Hc Hw Hd Hsh Hb Hy. pose proof Hc as (_ & _ & _ & HN & _).
  destruct (C87_array_independence _ _ _ _ _ _ _ _ Hc Hw Hsh Hb Hy) as (suf & W0 & S0 & A1 & A2).
  destruct (A2 [prod batch] ltac:(cbn; lia)) as (y1 & E1 & S1 & D1).
  exists (mk_nd (nd_dtype y1) (batch ++ [prod suf]) (nd_data y1)), (prod suf). split; [|split; [|split]].
  - apply predict_flat; cbn [prod fold_right]; [lia|now rewrite Nat.mul_1_r|exact Hb| |exact S1]. rewrite Hd. cbn [app] in E1. now rewrite E1.
  - unfold nd_wf in *. cbn [nd_data nd_shape]. rewrite D1, W0, S0, !prod_app. cbn. lia.
  - reflexivity.
  - intros i Hi. cbn [nd_data]. rewrite D1. destruct (A1 i Hi) as (z & Ez & _ & Dz). exists z. split; [exact Ez|]. symmetry. exact Dz.
Qed.
Print Assumptions C57_predict_jtfs_partial.

(** C57 as stated is refuted for batches without samples: whatever the transform does, nothing is returned. *)
Theorem C57_empty_refuted : forall shape (scattering : nd C -> res (nd C)) x, prod (removelast (nd_shape x)) = 0 ->
  (forall y, predict shape scattering x <> Ok y) /\
  (forall x' y', reshape_infer shape x = Ok x' -> scattering x' = Ok y' -> predict shape scattering x = Err ValueError).
Proof.
  intros shape scattering x H. split.
  - intros y E. unfold predict in E. inv_bind E. inv_bind E. unfold reshape_rest in E. rewrite H in E. discriminate.
  - intros x' y' E1 E2. unfold predict. rewrite E1. cbn [bind]. rewrite E2. cbn [bind]. unfold reshape_rest. now rewrite H.
Qed.
Print Assumptions C57_empty_refuted.

(** Lists and dictionaries have no method reshape: with these output types predict raises whatever the signals.  Images with
    pre_pad=True are never accepted: self.shape is the size without padding, which scattering then refuses. *)
Theorem C57_output_type_1d_refuted : forall support p out s N batch x l,
  (forall n t, (0 <= support n t)%Z) -> out = "list"%string \/ out = "dict"%string -> Scattering1D support p out = Ok s ->
  N_input_of (p_shape p) = Ok N -> (1 <= N)%Z -> (0 <= p_J p)%Z -> (1 <= p_max_order p <= 2)%Z ->
  nd_wf x -> nd_dtype x = Real -> nd_shape x = batch ++ [Z.to_nat N] -> 0 < prod batch ->
  scattering np (with_out s "list") x = Ok (OutList l) ->
  predict [Z.to_nat N] (fun x => array_of (scattering np s x)) x = Err AttributeError.
Proof.
  intros support p out s N batch x l Hsup Ho H EN HN HJ Hmo Hw Hd Hsh Hb Hrun. set (n := Z.to_nat N) in *. assert (Hn : 0 < n) by lia.
  assert (Eo : with_out s out = s /\ s_max_order s = p_max_order p).
  { pose proof H as H'. apply new_inv in H'. destruct H' as (b & Qs & T & l2 & phi & psi1s & psi2s & H'). destruct H' as (_ & _ & _ & _ & _ & _ & ->). split; reflexivity. }
  destruct Eo as [Eo Em].
  destruct (C22_batch_independence _ _ _ _ _ _ _ _ Hsup H EN HN HJ Hmo Hw Hsh Hrun) as [_ H2].
  destruct (H2 [prod batch] ltac:(cbn; lia) Hb) as (l1 & R1 & _). fold n in R1. cbn [app] in R1.
  destruct (C17_output_types_agree _ _ _ np s _ l1 ltac:(lia) R1) as [(d & R2 & _) _].
  unfold predict, reshape_infer. rewrite Hsh, prod_app. cbn [prod fold_right]. rewrite Nat.mul_1_r. destruct (Nat.eqb_spec n 0); [lia|].
  rewrite Nat.mod_mul by lia. cbn [Nat.eqb bind]. rewrite Nat.div_mul by lia. rewrite Hd.
  destruct Ho as [-> | ->]; rewrite Eo in *; [rewrite R1|rewrite R2]; reflexivity.
Qed.
Print Assumptions C57_output_type_1d_refuted.
Theorem C57_output_type_2d_refuted : forall p s batch x, (1 <= a_J p)%Z -> (2 ^ a_J p <= a_M p)%Z -> (2 ^ a_J p <= a_N p)%Z ->
  a_pre_pad p = false -> a_out_type p = "list"%string -> ScatteringNumPy2D p = Ok s ->
  let M := Z.to_nat (a_M p) in let N := Z.to_nat (a_N p) in
  nd_wf x -> nd_dtype x = Real -> nd_shape x = batch ++ [M * N] -> predict [M; N] (fun x => array_of2 (scattering2 np2 s x)) x = Err AttributeError.
Proof.
  intros p s batch x HJ HM HN Hpp Ho Hs M N Hw Hd Hsh. assert (Hp : valid2 p) by (split; [|split]; assumption).
  apply (numpy_new p Hp) in Hs. subst s. set (B := prod batch).
  assert (0 < 2 ^ a_J p)%Z by (apply Z.pow_pos_nonneg; lia). assert (PM : 0 < M) by (unfold M; lia). assert (PN : 0 < N) by (unfold N; lia). assert (P0 : 0 < M * N) by nia.
  assert (EM : in_M p = M) by (unfold in_M; now rewrite Hpp). assert (EN : in_N p = N) by (unfold in_N; now rewrite Hpp).
  set (xr := mk_nd Real ([B] ++ [M; N]) (nd_data x)).
  assert (Hr : batch2 p [B] xr).
  { split; [|split; [reflexivity|cbn [xr nd_shape]; now rewrite EM, EN]]. unfold nd_wf in *. cbn [xr nd_data nd_shape]. rewrite Hw, Hsh, !prod_app. fold B. cbn. nia. }
  destruct (paths_of p [B] xr Hp Hr) as (ims & Ex & Hi & _).
  unfold predict, reshape_infer. rewrite Hsh, prod_app. replace (prod [M; N]) with (M * N) by (cbn; lia). replace (prod [M * N]) with (M * N) by (cbn; lia).
  destruct (Nat.eqb_spec (M * N) 0); [lia|]. rewrite Nat.mod_mul by lia. cbn [Nat.eqb bind]. rewrite Nat.div_mul by lia. rewrite Hd. fold B.
  change (mk_nd Real (B :: [M; N]) (nd_data x)) with xr. rewrite Ex. now rewrite numpy_list.
Qed.
Print Assumptions C57_output_type_2d_refuted.
Theorem C57_pre_pad_refuted : forall p s x, (1 <= a_J p)%Z -> (2 ^ a_J p <= a_M p)%Z -> (2 ^ a_J p <= a_N p)%Z ->
  a_pre_pad p = true -> ScatteringNumPy2D p = Ok s -> nd_wf x ->
  let M := Z.to_nat (a_M p) in let N := Z.to_nat (a_N p) in
  predict [M; N] (fun x => array_of2 (scattering2 np2 s x)) x = Err (if Nat.eqb (prod (nd_shape x) mod (M * N)) 0 then RuntimeError else ValueError).
Proof.
  intros p s x HJ HM HN Hpp Hs Hw M N. assert (Hp : valid2 p) by (split; [|split]; assumption).
  assert (Q : (0 < 2 ^ a_J p)%Z) by (apply Z.pow_pos_nonneg; lia). assert (PM : 0 < M) by (unfold M; lia). assert (PN : 0 < N) by (unfold N; lia).
  unfold predict, reshape_infer. replace (prod [M; N]) with (M * N) by (cbn; lia).
  destruct (Nat.eqb_spec (M * N) 0); [nia|]. destruct (Nat.eqb_spec (prod (nd_shape x) mod (M * N)) 0) as [E|E]; [|reflexivity]. cbn [bind].
  set (xr := mk_nd _ _ _). assert (Wr : nd_wf xr).
  { unfold nd_wf in *. cbn [xr nd_data nd_shape]. rewrite Hw. cbn [prod fold_right]. rewrite Nat.mul_1_r, Nat.mul_comm. apply Nat.div_exact; assumption. }
  destruct (C102_errors np2 p s xr Hp (or_introl (conj eq_refl Hs)) Wr) as (R & _). rewrite R; [reflexivity|].
  intros pre E'. cbn [xr nd_shape] in E'. change [prod (nd_shape x) / (M * N); M; N] with ([prod (nd_shape x) / (M * N)] ++ [M; N]) in E'.
  apply (f_equal (@rev nat)) in E'. rewrite !rev_app_distr in E'. cbn in E'. injection E' as E1 E2 _.
  unfold in_N, N in E1. rewrite Hpp in E1. unfold padded_N in E1. pose proof (Z_div_mod_eq_full (a_N p + 2 ^ a_J p) (2 ^ a_J p)).
  pose proof (Z.mod_pos_bound (a_N p + 2 ^ a_J p) (2 ^ a_J p) Q). nia.
Qed.
Print Assumptions C57_pre_pad_refuted.

(** A batch of 3 x 2 flattened signals of 100 samples, of which predict makes 3 x 2 vectors. *)
Example C57_instance_1d : exists s y K,
  Scattering1D (fun _ _ => 30%Z) (mk_params 4 100 (QInt 8) TNone SNone 2) "array" = Ok s /\
  predict [100] (fun x => array_of (scattering np s x)) (mk_nd Real [3; 2; 100] (repeat (RtoC 0) 600)) = Ok y /\ nd_shape y = [3; 2; K].
Proof.
  destruct C12_C13_C14_instance as (s & Hs & _ & _ & Els & Ea).
  set (x := mk_nd Real [3; 2; 100] (repeat (RtoC 0) 600)).
  assert (Hw : nd_wf x) by reflexivity.
  set (p := mk_params 4 100 (QInt 8) TNone SNone 2) in *.
  assert (H30 : forall (n : Z) (t : Q), (0 <= 30)%Z) by (intros; lia).
  assert (EN : N_input_of (p_shape p) = Ok 100%Z) by reflexivity.
  assert (EQ : Q_of (p_Q p) = Ok [QI 8; QI 1]) by reflexivity.
  assert (ET : log2_T_of (p_T p) (p_J p) 100 = Ok 4%Z) by reflexivity.
  assert (HJ : (0 <= p_J p)%Z) by (cbn; lia). assert (Hmo : (1 <= p_max_order p <= 2)%Z) by (cbn; lia).
  pose proof (C15_total_partial (fun _ _ => 30%Z) p "array" s 100 8 1 4 4 H30 Hs EN ltac:(lia) HJ Hmo EQ ltac:(lia) Ea Els ET
    ltac:(lia) [3; 2] x eq_refl Hw eq_refl) as ((l & Hl) & _).
  destruct (C57_predict_1d_partial (fun _ _ => 30%Z) p s 100 [3; 2] x l H30 Hs EN ltac:(lia) HJ Hmo ltac:(congruence) Hw eq_refl eq_refl ltac:(cbn; lia) Hl)
    as (y & K & E & _ & Sy & _).
  exists s, y, K. split; [exact Hs|]. split; [exact E|exact Sy].
Qed.
(** The same batch with output type "dict", and padded images with pre_pad. *)
Example C57_instance_refuted : (exists s, Scattering1D (fun _ _ => 30%Z) (mk_params 4 100 (QInt 8) TNone SNone 2) "dict" = Ok s /\
    predict [100] (fun x => array_of (scattering np s x)) (mk_nd Real [3; 2; 100] (repeat (RtoC 0) 600)) = Err AttributeError) /\
  (exists s, ScatteringNumPy2D (mk_params2 2 4 5 2 2 false "list") = Ok s /\
    predict [4; 5] (fun x => array_of2 (scattering2 np2 s x)) (mk_nd Real [3; 20] (repeat (RtoC 0) 60)) = Err AttributeError) /\
  exists s, ScatteringNumPy2D (mk_params2 2 4 5 2 2 true "array") = Ok s /\
    predict [4; 5] (fun x => array_of2 (scattering2 np2 s x)) (mk_nd Real [3; 20] (repeat (RtoC 0) 60)) = Err RuntimeError.
Proof.
  split; [|split].
  - set (x := mk_nd Real [3; 2; 100] (repeat (RtoC 0) 600)). set (p := mk_params 4 100 (QInt 8) TNone SNone 2).
    destruct (constructor_instance (fun _ _ => 30%Z) 4 100 8 "dict") as [s Hs]; try (intros; lia). fold p in Hs. exists s. split; [exact Hs|].
    assert (Els : s_log2_stride s = Ok 4%Z /\ s_average s = Ok Local).
    { pose proof Hs as H. apply new_inv in H. destruct H as (b & Qs & T & l & phi & psi1s & psi2s & Hb & _ & _ & _ & _ & _ & ->).
      destruct (build_inv _ _ _ Hb) as (st & T' & l' & r & EN & EO & _ & _ & Eb).
      cbn in EO. injection EO as <-. cbn in EN. injection EN as EN. rewrite Eb. cbn [b_N b_stride s_log2_stride s_average]. rewrite <- EN. split; reflexivity. }
    destruct Els as [Els Ea]. assert (H30 : forall (n : Z) (t : Q), (0 <= 30)%Z) by (intros; lia).
    assert (EN : N_input_of (p_shape p) = Ok 100%Z) by reflexivity. assert (EQ : Q_of (p_Q p) = Ok [QI 8; QI 1]) by reflexivity.
    assert (ET : log2_T_of (p_T p) (p_J p) 100 = Ok 4%Z) by reflexivity.
    assert (HJ : (0 <= p_J p)%Z) by (cbn; lia). assert (Hmo : (1 <= p_max_order p <= 2)%Z) by (cbn; lia).
    pose proof (C15_total_partial (fun _ _ => 30%Z) p "dict" s 100 8 1 4 4 H30 Hs EN ltac:(lia) HJ Hmo EQ ltac:(lia) Ea Els ET ltac:(lia) [3; 2] x eq_refl eq_refl eq_refl) as ((l & Hl) & _).
    apply (C57_output_type_1d_refuted (fun _ _ => 30%Z) p "dict" s 100 [3; 2] x l H30 (or_intror eq_refl) Hs EN ltac:(lia) HJ Hmo eq_refl eq_refl eq_refl ltac:(cbn; lia) Hl).
  - set (p := mk_params2 2 4 5 2 2 false "list"). assert (Hn : ScatteringNumPy2D p = Ok (npobj p)) by (unfold ScatteringNumPy2D; rewrite new2_eval by (cbn; lia); reflexivity).
    exists (npobj p). split; [exact Hn|]. apply (C57_output_type_2d_refuted p (npobj p) [3]); try (cbn; lia); try reflexivity; assumption.
  - set (p := mk_params2 2 4 5 2 2 true "array"). assert (Hn : ScatteringNumPy2D p = Ok (npobj p)) by (unfold ScatteringNumPy2D; rewrite new2_eval by (cbn; lia); reflexivity).
    exists (npobj p). split; [exact Hn|]. exact (C57_pre_pad_refuted p (npobj p) (mk_nd Real [3; 20] (repeat (RtoC 0) 60)) ltac:(cbn; lia) ltac:(cbn; lia) ltac:(cbn; lia) eq_refl Hn eq_refl).
Qed.
(** The second of three flattened images of 4 x 5 pixels. *)
Example C57_instance_2d : forall x, nd_wf x -> nd_dtype x = Real -> nd_shape x = [3; 20] ->
  exists s y z K, ScatteringNumPy2D (mk_params2 2 4 5 2 2 false "array") = Ok s /\ predict [4; 5] (fun x => array_of2 (scattering2 np2 s x)) x = Ok y /\
    scattering2 np2 s (mk_nd Real [4; 5] (firstn 20 (skipn 20 (nd_data x)))) = Ok (Array2 z) /\ nd_shape y = [3; K] /\ firstn K (skipn K (nd_data y)) = nd_data z.
Proof.
  intros x Hw Hd Hs. set (p := mk_params2 2 4 5 2 2 false "array").
  assert (Hn : ScatteringNumPy2D p = Ok (npobj p)) by (unfold ScatteringNumPy2D; rewrite new2_eval by (cbn; lia); reflexivity).
  destruct (C57_predict_2d_partial p (npobj p) [3] x) as (y & K & E & _ & Sy & H); try (cbn; lia); try reflexivity; try assumption.
  destruct (H 1 ltac:(cbn; lia)) as (z & Ez & Vz). exists (npobj p), y, z, K. split; [exact Hn|]. split; [exact E|]. split; [exact Ez|]. split; [exact Sy|].
  rewrite Nat.mul_1_l in Vz. exact Vz.
Qed.
(** Two flattened volumes of 4 x 2 x 3 points. *)
Example C57_instance_3d : exists y K, predict [4; 2; 3] (numpy_scattering3 (mk_scat3 p_ex F_ex [])) (mk_nd Real [2; 24] (map (fun n => RtoC (INR n)) (seq 0 48))) = Ok y /\ nd_shape y = [2; K].
Proof.
  destruct (C57_predict_3d_partial p_ex F_ex [] [2] (mk_nd Real [2; 24] (map (fun n => RtoC (INR n)) (seq 0 48))) p_ex_valid F_ex_ok) as (y & K & E & _ & S & _);
    [now right|reflexivity|reflexivity|reflexivity|cbn; lia|]. exists y, K. split; [exact E|exact S].
Qed.
(** Three flattened signals of any length N >= 4 and the joint time-frequency transform, in both formats. *)
Example C57_instance_jtfs : forall N format, (4 <= N)%Z -> In format ["joint"; "time"]%string ->
  let x := mk_nd Real [3; Z.to_nat N] (map (fun i => RtoC (INR i)) (seq 0 (3 * Z.to_nat N))) in
  exists t y K, predict [Z.to_nat N] (fun x => array_of_j (jtfs_scattering np sgnR t x)) x = Ok y /\ nd_shape y = [3; K].
Proof.
  intros N format HN Hf x. destruct (C87_instance N format HN Hf) as (_ & _ & _ & t & y0 & _ & _ & _ & Ht & Hy & Hw).
  destruct (C57_predict_jtfs_partial _ _ _ _ [3] x y0 Ht Hw eq_refl eq_refl ltac:(cbn; lia) Hy) as (y & K & E & _ & S & _).
  exists t, y, K. split; [exact E|exact S].
Qed.
