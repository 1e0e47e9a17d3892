(** The 3-D transform and its frontends on whole arrays: sizes, order of the coefficients and values. *)
From Coq Require Import String Reals ZArith List Bool Arith Lia Lra.
From Coquelicot Require Import Complex.
From Verif Require Import Base BaseProofs NdArray NdProofs StackProofs Backend Backend2d Images ComplexOps Dft Conv1d Dft2 Mats
  Backend3d Core3d FilterBank3d Frontend3d Dft3 Rows3d.
Import ListNotations.
Local Open Scope Z_scope.

Definition firsts3 (J : Z) : list (list Z) := map (fun j => [j]) (zrange 0 (J + 1)).
Definition pairs3 (J : Z) : list (list Z) :=
  concat (map (fun j1 => map (fun j2 => [j1; j2]) (zrange (j1 + 1) (J + 1))) (zrange 0 (J + 1))).
Definition paths3 (J max_order : Z) : list (list Z) := firsts3 J ++ if max_order =? 2 then pairs3 J else [].

Lemma In_zrange a b z : In z (zrange a b) <-> a <= z < b.
Proof.
  unfold zrange. rewrite in_map_iff. split.
  - intros (k & <- & Hk). apply in_seq in Hk. lia.
  - intros H. exists (Z.to_nat (z - a)). split; [lia|]. apply in_seq. lia.
Qed.
Lemma zrange_length a b : List.length (zrange a b) = Z.to_nat (b - a).
Proof. unfold zrange. now rewrite map_length, seq_length. Qed.

Lemma zip_star_eq {A} n (rows : list (list A)) : rows <> [] -> Forall (fun r => List.length r = n) rows ->
  zip_star rows = map (fun i => concat (map (fun r => match nth_error r i with Some a => [a] | None => [] end) rows)) (seq 0 n).
Proof.
  intros Hne HF. destruct rows as [|r rs]; [congruence|]. unfold zip_star. f_equal. f_equal. inversion HF as [|? ? H1 H2]; subst. clear - H2.
  induction H2 as [|r' rs E H IH]; [reflexivity|]. cbn [map fold_right]. rewrite IH, E. apply Nat.min_id.
Qed.
Lemma zip_star_map {A P L} (f : L -> P -> A) (ps : list P) (ls : list L) : ls <> [] ->
  zip_star (map (fun l => map (f l) ps) ls) = map (fun p => map (fun l => f l p) ls) ps.
Proof.
  intros Hne. rewrite (zip_star_eq (List.length ps)).
  - destruct ps as [|p0 ps']; [reflexivity|]. set (ps := p0 :: ps'). rewrite <- (map_nth_seq (fun p => map (fun l => f l p) ls) p0 ps).
    apply map_ext_in. intros i Hi. apply in_seq in Hi. rewrite map_map. clear Hne. induction ls as [|l ls IH]; [reflexivity|]. cbn [map concat].
    rewrite nth_error_map, (nth_error_nth' ps p0) by lia. cbn [option_map app]. now rewrite IH.
  - now destruct ls.
  - apply Forall_map, Forall_forall. intros l _. apply map_length.
Qed.
Lemma stack_maps d B n (gs : list (list C -> list C)) (vols : list (list C)) : gs <> [] -> List.length vols = B ->
  (forall g v, In g gs -> In v vols -> List.length (g v) = n) ->
  stack (map (fun g => of_rows d [B] n (map g vols)) gs) 1 = Ok (mk_nd d [B; List.length gs; n] (concat (map (fun v => concat (map (fun g => g v) gs)) vols))).
Proof.
  intros Hne HB Hg.
  assert (E : stack (map (fun g => of_rows d [B] n (map g vols)) gs) 1 = stack (map (of_rows d [B] n) (map (fun g => map g vols) gs)) (-2)).
  { rewrite map_map. assert (Hs : forall x, In x (map (fun g => of_rows d [B] n (map g vols)) gs) -> nd_shape x = [B] ++ [n]) by (intros x Hx; apply in_map_iff in Hx as (g & <- & _); reflexivity).
    assert (Hn : map (fun g => of_rows d [B] n (map g vols)) gs <> []) by (now destruct gs).
    rewrite (stack_axis _ [B] [n] 1 Hn (or_intror eq_refl) Hs). now rewrite (stack_axis _ [B] [n] (-2) Hn (or_introl eq_refl) Hs). }
  rewrite E. rewrite stack_of.
  - unfold of_rows. cbn [app]. rewrite map_length. do 2 f_equal. unfold interleave. replace (prod [B]) with B by (cbn; lia).
    rewrite (map_ext_in _ (fun i => map (fun g => g (nth i vols [])) gs)).
    + rewrite (map_nth_seq' (fun v => map (fun g => g v) gs) [] vols B HB). clear. induction vols as [|v vols IH]; [reflexivity|].
      cbn [map concat]. now rewrite concat_app, IH.
    + intros i Hi. apply in_seq in Hi. rewrite map_map. apply map_ext. intros g. apply nth_map_any. lia.
  - now destruct gs.
  - apply Forall_map, Forall_forall. intros g Hin. split; [rewrite map_length, HB; cbn; lia|]. apply Forall_map, Forall_forall. intros v Hv. now apply Hg.
Qed.

Section Eval3.
Variables (cd : nd C -> nd C -> res (nd C)) (M N D : nat) (cov : bool) (F : list (list (list (nd C)))) (L J : Z) (powers : list R).
Hypothesis (HM : (0 < M)%nat) (HN : (0 < N)%nat) (HD : (0 < D)%nat) (HL : 0 <= L) (HJ : 0 <= J) (Hp : powers <> []).
Hypothesis Hcd : forall B vols w, vols_ok B M N D vols -> filter3_ok M N D w ->
  cd (of_vols Complex B M N D vols) w = Ok (of_vols Complex B M N D (map (mul_row cops (nd_data w)) vols)).
Hypothesis HF : bank3_ok M N D L J F.
Notation be := (with_cdgmm cd).
Notation nq := (List.length powers).
(** The wavelet modulus at the end of a path. *)
Definition U_path (l : Z) (v : list C) (p : list Z) : list C := fold_left (fun v j => U3 M N D cov (comps F l j) v) p v.
Definition coefs3 (max_order : Z) (v : list C) : list C :=
  concat (map (fun p => concat (map (fun l => moments powers (U_path l v p)) (zrange 0 (L + 1)))) (paths3 J max_order)).
Variables (B : nat) (vols : list (list C)).
Hypothesis (HB : (0 < B)%nat) (Hvols : vols_ok B M N D vols).
Notation hats vs := (of_vols Complex B M N D (map (sep3 dft M N D) vs)).
Definition row3 (l : Z) (p : list Z) : nd C := of_rows Real [B] nq (map (fun v => moments powers (U_path l v p)) vols).

Lemma vols_U l j vs : vols_ok B M N D vs -> vols_ok B M N D (map (U3 M N D cov (comps F l j)) vs).
Proof. intros H. apply vols_ok_map; [intros; apply U3_length|exact H]. Qed.
Lemma averaging_of vs : vols_ok B M N D vs -> np3_integrals (of_vols Real B M N D vs) powers = Ok (of_rows Real [B] nq (map (moments powers) vs)).
Proof. intros H. now apply np3_integrals_of. Qed.
Notation avg3 := (fun u => b3_compute_integrals be u powers).
Lemma first3_of max_order l j1 : 0 <= l <= L -> 0 <= j1 <= J ->
  first3 be F cov avg3 J max_order l (hats vols) j1 =
  Ok (row3 l [j1], if 1 <? max_order then map (fun j2 => row3 l [j1; j2]) (zrange (j1 + 1) (J + 1)) else []).
Proof.
  intros Hl Hj. unfold first3. rewrite (wavelet_modulus_of cd M N D cov HM HN HD Hcd B vols Hvols F L J HF) by assumption. cbn [bind b3_compute_integrals b3_rfft with_cdgmm].
  rewrite averaging_of by now apply vols_U. cbn [bind]. rewrite map_map. change (of_rows Real [B] nq (map (fun v => moments powers (U3 M N D cov (comps F l j1) v)) vols)) with (row3 l [j1]).
  destruct (1 <? max_order); [|reflexivity]. rewrite np3_rfft_of by first [assumption|now apply vols_U]. cbn [bind].
  rewrite (mapM_ext _ (fun j2 => Ok (row3 l [j1; j2]))).
  - now rewrite mapM_Ok.
  - intros j2 H2. apply In_zrange in H2. unfold second3.
    rewrite (wavelet_modulus_of cd M N D cov HM HN HD Hcd B _ (vols_U l j1 vols Hvols) F L J HF) by lia. cbn [bind b3_compute_integrals with_cdgmm].
    rewrite averaging_of by now apply vols_U, vols_U. unfold row3. now rewrite !map_map.
Qed.
Lemma degree3_of max_order l : 0 <= l <= L ->
  degree3 be F cov avg3 J max_order (hats vols) l = Ok (map (row3 l) (firsts3 J), if 1 <? max_order then map (row3 l) (pairs3 J) else []).
Proof.
  intros Hl. unfold degree3.
  rewrite (mapM_ext _ (fun j1 => Ok (row3 l [j1], if 1 <? max_order then map (fun j2 => row3 l [j1; j2]) (zrange (j1 + 1) (J + 1)) else []))).
  - rewrite mapM_Ok. cbn [bind]. rewrite !map_map. cbn [fst snd]. unfold firsts3, pairs3. rewrite map_map. do 2 f_equal.
    destruct (1 <? max_order).
    + rewrite concat_map, map_map. f_equal. apply map_ext. intros j1. now rewrite map_map.
    + generalize (zrange 0 (J + 1)). intros l'. induction l' as [|j js IH]; [reflexivity|exact IH].
  - intros j1 H1. apply In_zrange in H1. apply first3_of; lia.
Qed.
Lemma paths3_nil max_order : paths3 J max_order <> [].
Proof.
  unfold paths3, firsts3. destruct (zrange 0 (J + 1)) as [|j js] eqn:E; [|discriminate].
  pose proof (zrange_length 0 (J + 1)) as H. rewrite E in H. cbn in H. lia.
Qed.
Lemma moments_length v : List.length (moments powers v) = nq.
Proof. apply map_length. Qed.
Theorem scattering3d_of max_order :
  scattering3d be F cov avg3 L J max_order (of_vols Real B M N D vols) =
  Ok (mk_nd Real [B; List.length (paths3 J max_order); Z.to_nat (L + 1); nq] (concat (map (coefs3 max_order) vols))).
Proof.
  unfold scattering3d. cbn [b3_rfft with_cdgmm]. rewrite np3_rfft_of by assumption. cbn [bind].
  rewrite (mapM_ext _ (fun l => Ok (map (row3 l) (firsts3 J), if 1 <? max_order then map (row3 l) (pairs3 J) else []))) by (intros l H; apply In_zrange in H; apply degree3_of; lia).
  rewrite mapM_Ok. cbn [bind].
  assert (E : (if max_order =? 2
       then map (fun d => fst d ++ snd d) (map (fun l => (map (row3 l) (firsts3 J), if 1 <? max_order then map (row3 l) (pairs3 J) else [])) (zrange 0 (L + 1)))
       else map fst (map (fun l => (map (row3 l) (firsts3 J), if 1 <? max_order then map (row3 l) (pairs3 J) else [])) (zrange 0 (L + 1)))) =
     map (fun l => map (row3 l) (paths3 J max_order)) (zrange 0 (L + 1))).
  { unfold paths3. destruct (Z.eqb_spec max_order 2) as [->|Hm]; rewrite map_map; apply map_ext; intros l; cbn [fst snd].
    - change (1 <? 2) with true. now rewrite map_app.
    - now rewrite app_nil_r. }
  rewrite E. clear E. assert (Hls : zrange 0 (L + 1) <> []).
  { intros E. pose proof (zrange_length 0 (L + 1)) as H. rewrite E in H. cbn in H. lia. }
  rewrite zip_star_map by exact Hls. cbn [b3_stack with_cdgmm]. unfold np3_stack.
  set (gs := concat (map (fun p => map (fun l => fun v : list C => moments powers (U_path l v p)) (zrange 0 (L + 1))) (paths3 J max_order))).
  replace (concat (map (fun p => map (fun l => row3 l p) (zrange 0 (L + 1))) (paths3 J max_order))) with (map (fun g => of_rows Real [B] nq (map g vols)) gs).
  2:{ unfold gs. rewrite concat_map, map_map. f_equal. apply map_ext. intros p. now rewrite map_map. }
  assert (Hlen : List.length gs = (List.length (paths3 J max_order) * Z.to_nat (L + 1))%nat).
  { unfold gs. rewrite (concat_len (Z.to_nat (L + 1))), map_length; [reflexivity|]. apply Forall_map, Forall_forall. intros p _. rewrite map_length, zrange_length. f_equal. lia. }
  pose proof (paths3_nil max_order) as Hps. destruct Hvols as [Hv1 Hv2]. replace (prod [B]) with B in Hv1 by (cbn; lia).
  rewrite stack_maps.
  - cbn [bind nd_shape]. destruct (Z.eqb_spec (L + 1) 0); [lia|]. destruct (Z.ltb_spec (L + 1) 0); [lia|]. rewrite Hlen.
    rewrite Nat.div_mul by lia. unfold reshape. cbn [prod fold_right nd_shape nd_dtype nd_data].
    replace (Nat.eqb _ _) with true by (symmetry; apply Nat.eqb_eq; ring). do 3 f_equal. apply map_ext. intros v. unfold coefs3, gs.
    rewrite concat_map, map_map. rewrite concat_concat, map_map. f_equal. apply map_ext. intros p. now rewrite map_map.
  - intros E. rewrite E in Hlen. cbn in Hlen. destruct (paths3 J max_order); [congruence|]. cbn in Hlen. lia.
  - exact Hv1.
  - intros g v Hg _. apply in_concat in Hg as (gl & H1 & H2). apply in_map_iff in H1 as (p & <- & _). apply in_map_iff in H2 as (l & <- & _). apply moments_length.
Qed.
End Eval3.

(** ** Frontends *)
Definition sizes3 (p : params3) (M N D : nat) : Prop := h_M p = Z.of_nat M /\ h_N p = Z.of_nat N /\ h_O p = Z.of_nat D /\ (0 < M)%nat /\ (0 < N)%nat /\ (0 < D)%nat.
Lemma split_last3_app pre M N D : split_last3 (pre ++ [M; N; D]) = Ok (pre, M, N, D).
Proof. unfold split_last3. rewrite rev_app_distr. cbn. now rewrite rev_involutive. Qed.
Lemma split_last3_inv s pre M N D : split_last3 s = Ok (pre, M, N, D) -> s = pre ++ [M; N; D].
Proof.
  unfold split_last3. intros H. destruct (rev s) as [|a [|b [|c r]]] eqn:E; try discriminate. injection H as <- <- <- <-.
  rewrite <- (rev_involutive s), E. cbn. now rewrite <- !app_assoc.
Qed.
Lemma check3_ok p M N D batch : sizes3 p M N D -> check3 p (batch ++ [M; N; D]) = Ok tt.
Proof.
  intros (H1 & H2 & H3 & _). unfold check3. rewrite split_last3_app, H1, H2, H3, !Z.eqb_refl. reflexivity.
Qed.
Lemma prod3 batch M N D : prod (batch ++ [M; N; D]) = (prod batch * (M * (N * D)))%nat.
Proof. rewrite prod_app. cbn. ring. Qed.
(** Volume number b of a batch. *)
Definition volume (M N D : nat) (b : nat) (x : nd C) : list C := block (M * (N * D)) b x.
Lemma chunks_block n m (x : nd C) : List.length (nd_data x) = (m * n)%nat -> chunks m n (nd_data x) = map (fun b => block n b x) (seq 0 m).
Proof.
  intros H. unfold block. revert H. generalize (nd_data x). clear x. induction m as [|m IH]; intros l H; [reflexivity|]. cbn [chunks seq map].
  rewrite Nat.mul_0_l, skipn_O. f_equal. rewrite IH by (rewrite skipn_length; lia). rewrite <- seq_shift, map_map. apply map_ext. intros b. f_equal.
  clear. replace (S b * n)%nat with (n + b * n)%nat by ring. generalize (b * n)%nat. intros k. revert l. induction n as [|n IH]; intros l; [reflexivity|]. destruct l as [|a l]; [now rewrite !skipn_nil|].
  cbn [skipn plus]. apply IH.
Qed.
Section Front3.
Variables (cd : nd C -> nd C -> res (nd C)) (p : params3) (F : list (list (list (nd C)))) (g : list (nd C)) (M N D : nat) (batch : list nat) (x : nd C).
Hypothesis Hcd : forall B vols w, vols_ok B M N D vols -> filter3_ok M N D w ->
  cd (of_vols Complex B M N D vols) w = Ok (of_vols Complex B M N D (map (mul_row cops (nd_data w)) vols)).
Hypothesis (Hs : sizes3 p M N D) (HL : 0 <= h_L p) (HJ : 0 <= h_J p) (Hq : h_integral_powers p <> []).
Hypothesis (HF : bank3_ok M N D (h_L p) (h_J p) F) (Hw : nd_wf x) (Hd : nd_dtype x = Real) (Hx : nd_shape x = batch ++ [M; N; D]) (Hb : (0 < prod batch)%nat).
Definition out3 : nd C :=
  mk_nd Real (batch ++ [List.length (paths3 (h_J p) (h_max_order p)); Z.to_nat (h_L p + 1); List.length (h_integral_powers p)])
    (concat (map (fun b => coefs3 M N D (h_rotation_covariant p) F (h_L p) (h_J p) (h_integral_powers p) (h_max_order p) (volume M N D b x)) (seq 0 (prod batch)))).
Lemma run3_of : run3 (with_cdgmm cd) (mk_scat3 p F g) x = Ok out3.
Proof.
  destruct Hs as (_ & _ & _ & HM & HN & HD). unfold run3. cbn [t_args t_filters b3_reshape_infer b3_reshape b3_shape with_cdgmm].
  rewrite Hx, app_length. cbn [List.length]. replace (List.length batch + 3 - 3)%nat with (List.length batch) by lia.
  rewrite firstn_app, firstn_all, Nat.sub_diag, firstn_O, app_nil_r, skipn_app, skipn_all, Nat.sub_diag, skipn_O. cbn [app].
  assert (HV : (M * (N * D) <> 0)%nat) by nia.
  unfold reshape_infer. rewrite Hx, prod3. replace (prod [M; N; D]) with (M * (N * D))%nat by (cbn; ring). destruct (Nat.eqb_spec (M * (N * D)) 0); [lia|].
  rewrite Nat.mod_mul, Nat.div_mul by exact HV. cbn [Nat.eqb bind]. rewrite Hd.
  set (vols := map (fun b => volume M N D b x) (seq 0 (prod batch))).
  assert (HX : List.length (nd_data x) = (prod batch * (M * (N * D)))%nat) by (rewrite Hw, Hx; apply prod3).
  destruct (chunks_ok (prod batch) (M * (N * D)) (nd_data x) HX) as (C1 & C2 & C3).
  assert (Ev : chunks (prod batch) (M * (N * D)) (nd_data x) = vols) by (now apply chunks_block).
  rewrite Ev in C1, C2, C3.
  assert (Hvols : vols_ok (prod batch) M N D vols) by (split; [rewrite C1; cbn; lia|exact C2]).
  rewrite <- C3. change (mk_nd Real [prod batch; M; N; D] (concat vols)) with (of_vols Real (prod batch) M N D vols).
  rewrite (scattering3d_of cd M N D (h_rotation_covariant p) F (h_L p) (h_J p) (h_integral_powers p) HM HN HD HL HJ Hq Hcd HF (prod batch) vols Hb Hvols).
  cbn [bind nd_shape skipn]. unfold reshape. cbn [nd_shape nd_dtype nd_data]. rewrite prod_app. cbn [prod fold_right].
  replace (Nat.eqb _ _) with true by (symmetry; apply Nat.eqb_eq; ring). unfold out3, vols. now rewrite map_map.
Qed.
End Front3.
Lemma numpy_backend3_eq : numpy_backend3 = with_cdgmm (np_cdgmm cops).
Proof. reflexivity. Qed.
Lemma tf_backend3_eq : tf_backend3 = with_cdgmm tf3_cdgmm.
Proof. reflexivity. Qed.

(** ** The filters of a constructed object *)
Lemma bank_ready sph M N D J L s0 : bank3_ok M N D L J (solid_harmonic_filter_bank sph M N D J L s0).
Proof.
  unfold solid_harmonic_filter_bank. split; [rewrite map_length, zrange_length; f_equal; lia|].
  apply Forall_map, Forall_forall. intros l _. split; [rewrite map_length, zrange_length; f_equal; lia|].
  apply Forall_map, Forall_forall. intros j _. unfold solid_harmonic_3d. split; [now rewrite Nat.add_comm|].
  apply Forall_map, Forall_forall. intros i _. split; [reflexivity|]. split; [discriminate|]. unfold nd_wf. cbn [nd_data nd_shape]. rewrite vol_length. cbn. lia.
Qed.
Lemma nth_zrange (a b : Z) (k : nat) d : (k < Z.to_nat (b - a))%nat -> nth k (zrange a b) d = a + Z.of_nat k.
Proof.
  intros H. unfold zrange. rewrite (nth_map_any _ _ _ _ 0%nat) by (rewrite seq_length; exact H). rewrite seq_nth by exact H. reflexivity.
Qed.
Lemma comps_bank sph M N D J L s0 l j : 0 <= l <= L -> 0 <= j <= J ->
  comps (solid_harmonic_filter_bank sph M N D J L s0) l j =
  map (fun i => vol M N D (fun a b c => solid_harmonic_at sph (s0 * pow 2 (Z.to_nat j)) (Z.to_nat l) (Z.of_nat i - Z.of_nat (Z.to_nat l)) (freq M a) (freq N b) (freq D c)))
    (seq 0 (2 * Z.to_nat l + 1)).
Proof.
  intros Hl Hj. unfold comps, solid_harmonic_filter_bank.
  rewrite (nth_map_any _ _ _ _ 0) by (rewrite zrange_length; lia). rewrite nth_zrange by lia.
  rewrite (nth_map_any _ _ _ _ 0) by (rewrite zrange_length; lia). rewrite nth_zrange by lia.
  unfold solid_harmonic_3d. rewrite map_map. rewrite !Z.add_0_l, !Nat2Z.id. reflexivity.
Qed.
(** When the constructor succeeds. *)
Definition valid3 (p : params3) : Prop := 0 <= h_J p /\ 0 <= h_L p /\ 0 < h_M p /\ 0 < h_N p /\ 0 < h_O p /\ h_sigma_0 p <> 0%R /\ h_integral_powers p <> [].
Lemma new3_ok sph p : valid3 p -> new3 sph p =
  Ok (mk_scat3 p (solid_harmonic_filter_bank sph (Z.to_nat (h_M p)) (Z.to_nat (h_N p)) (Z.to_nat (h_O p)) (h_J p) (h_L p) (h_sigma_0 p))
        (gaussian_filter_bank (Z.to_nat (h_M p)) (Z.to_nat (h_N p)) (Z.to_nat (h_O p)) (h_J p + 1) (h_sigma_0 p))).
Proof.
  intros (HJ & HL & HM & HN & HO & Hs & _). unfold new3.
  destruct (Z.ltb_spec (h_M p) 0); [lia|]. destruct (Z.ltb_spec (h_N p) 0); [lia|]. destruct (Z.ltb_spec (h_O p) 0); [lia|]. cbn [orb].
  destruct (Z.ltb_spec (h_J p) (-1)); [lia|]. rewrite andb_false_r. destruct (Z.ltb_spec (h_J p) (-2)); [lia|]. cbn [orb].
  destruct (Z.eqb_spec (h_M p) 0); [lia|]. destruct (Z.eqb_spec (h_N p) 0); [lia|]. destruct (Z.eqb_spec (h_O p) 0); [lia|]. cbn [orb]. rewrite andb_false_r.
  destruct (Req_EM_T (h_sigma_0 p) 0); [contradiction|]. now rewrite andb_false_r.
Qed.
Lemma valid3_sizes p : valid3 p -> sizes3 p (Z.to_nat (h_M p)) (Z.to_nat (h_N p)) (Z.to_nat (h_O p)).
Proof. intros (HJ & HL & HM & HN & HO & _). unfold sizes3. rewrite !Z2Nat.id by lia. repeat split; lia. Qed.
