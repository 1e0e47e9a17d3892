(** Evaluation of the core of the 2-D scattering transform with the NumPy operations: every coefficient is computed image
    by image, and what is computed from an image. *)
From Coq Require Import String ZArith List Bool Arith Lia.
From Verif Require Import Base BaseProofs NdArray Backend NdProofs Rows1d StackProofs Backend2d Core2d Images.
Import ListNotations.
Local Open Scope nat_scope.

Section Rows2.
Context {K : Type} (o : ops K) (Ho : ops_ok o).
Notation z := (o_zero o).
Notation filter2 := (Core2d.filter2 (nd K)).
Notation be := (numpy_backend2 o).

(** The tabulated response of a filter at a level, and what is expected of it. *)
Definition level2_ok (f : filter2) (l : Z) (m n : nat) : Prop :=
  exists w, nth_error (g_levels f) (Z.to_nat l) = Some w /\ nd_shape w = [m; n] /\ nd_dtype w <> OtherT /\ List.length (nd_data w) = m * n.
Definition lev2 (f : filter2) (l : Z) : list K := match nth_error (g_levels f) (Z.to_nat l) with Some w => nd_data w | None => [] end.

(** Product with the filter in the Fourier domain and subsampling by 2**k (omitted when k = 0). *)
Definition filt_img (f : filter2) (l k : Z) (M N : nat) (im : list K) : list K :=
  let y := mul_row o (lev2 f l) (sep2 o (o_fft o) M N im) in
  if (0 <? k)%Z then fold_img o M N (p2 k) y else y.
Definition env_img (f : filter2) (l k : Z) (M N : nat) (im : list K) : list K :=
  map (o_abs o) (sep2 o (o_ifft o) (M / p2 k) (N / p2 k) (filt_img f l k M N im)).
Definition low_img (f : filter2) (l k : Z) (M N : nat) (im : list K) : list K :=
  unpad_img o (M / p2 k) (N / p2 k) (map (o_re o) (sep2 o (o_ifft o) (M / p2 k) (N / p2 k) (filt_img f l k M N im))).

Lemma div_p2_0 n : n / p2 0 = n.
Proof. rewrite p2_0. apply Nat.div_1_r. Qed.
Lemma filt_img_length f l k M N im : level2_ok f l M N -> (0 <= k)%Z -> List.length im = M * N ->
  List.length (filt_img f l k M N im) = (M / p2 k) * (N / p2 k).
Proof.
  intros (w & Ew & _ & _ & Hw) Hk Him. unfold filt_img, lev2. rewrite Ew. destruct (Z.ltb_spec 0 k).
  - unfold fold_img. apply img_length.
  - replace k with 0%Z by lia. rewrite !div_p2_0. rewrite mul_row_length; rewrite (sep2_length o) by first [apply Ho|exact Him]; [reflexivity|exact Hw].
Qed.
Lemma env_img_length f l k M N im : level2_ok f l M N -> (0 <= k)%Z -> List.length im = M * N ->
  List.length (env_img f l k M N im) = (M / p2 k) * (N / p2 k).
Proof. intros. unfold env_img. rewrite map_length. apply (sep2_length o); [apply Ho|now apply filt_img_length]. Qed.
Lemma low_img_length f l k M N im : List.length (low_img f l k M N im) = (M / p2 k - 2) * (N / p2 k - 2).
Proof. unfold low_img, unpad_img. apply img_length. Qed.

Section Steps.
Variables (B M N : nat) (ims : list (list K)) (f : filter2) (l k : Z).
Hypothesis (Hi : imgs_ok [B] M N ims) (HM : 0 < M) (HN : 0 < N) (Hl : (0 <= l)%Z) (Hk : (0 <= k)%Z).
Hypothesis (Hf : level2_ok f l M N) (HdM : Nat.divide (p2 k) M) (HdN : Nat.divide (p2 k) N).

Lemma hats_ok : imgs_ok [B] M N (map (sep2 o (o_fft o) M N) ims).
Proof. apply (imgs_ok_map _ M N); [|exact Hi]. intros im H. apply (sep2_length o); [apply Ho|exact H]. Qed.
(** cdgmm and subsample_fourier. *)
Lemma filt_step {A} (cont : nd K -> res A) :
  bind (py_index (g_levels f) l) (fun w => bind (np_cdgmm o (of_imgs Complex [B] M N (map (sep2 o (o_fft o) M N) ims)) w)
    (fun y => bind (np2_subsample o y (pow2 k)) cont)) =
  if (0 <? k)%Z then cont (of_imgs Complex [B] (M / p2 k) (N / p2 k) (map (filt_img f l k M N) ims))
  else bind (np2_subsample o (of_imgs Complex [B] M N (map (filt_img f l k M N) ims)) (PInt 1)) cont.
Proof.
  destruct Hf as (w & Ew & Es & Ed & Ewl). rewrite (proj2 (py_index_nonneg _ _ w Hl) Ew). cbn [bind].
  pose proof hats_ok as Hh. rewrite np2_cdgmm_of by first [exact Hh|assumption]. cbn [bind].
  assert (Hm : imgs_ok [B] M N (map (mul_row o (nd_data w)) (map (sep2 o (o_fft o) M N) ims))).
  { apply (imgs_ok_map _ M N); [|exact Hh]. intros im H. rewrite mul_row_length; congruence. }
  rewrite (pow2_p2 k Hk). unfold filt_img, lev2. rewrite Ew. destruct (Z.ltb_spec 0 k) as [Hp|Hp].
  - rewrite (np2_subsample_of o B M N _ Hm) by first [apply p2_pos|assumption]. cbn [bind]. now rewrite !map_map.
  - replace k with 0%Z by lia. rewrite p2_0. now rewrite !map_map.
Qed.
Lemma filt_first {A} (cont : nd K -> res A) :
  bind (py_index (g_levels f) l) (fun w => bind (np_cdgmm o (of_imgs Complex [B] M N (map (sep2 o (o_fft o) M N) ims)) w)
    (fun y => bind (if (0 <? k)%Z then np2_subsample o y (pow2 k) else Ok y) cont)) =
  cont (of_imgs Complex [B] (M / p2 k) (N / p2 k) (map (filt_img f l k M N) ims)).
Proof.
  destruct (Z.ltb_spec 0 k) as [Hp|Hp].
  - pose proof (filt_step cont) as E. destruct (Z.ltb_spec 0 k); [exact E|lia].
  - destruct Hf as (w & Ew & Es & Ed & Ewl). rewrite (proj2 (py_index_nonneg _ _ w Hl) Ew). cbn [bind].
    rewrite np2_cdgmm_of by first [exact hats_ok|assumption]. cbn [bind]. unfold filt_img, lev2. rewrite Ew.
    destruct (Z.ltb_spec 0 k); [lia|]. replace k with 0%Z by lia. rewrite !div_p2_0, !map_map. reflexivity.
Qed.
Lemma filts_ok : imgs_ok [B] (M / p2 k) (N / p2 k) (map (filt_img f l k M N) ims).
Proof. apply (imgs_ok_map _ M N); [|exact Hi]. intros im H. now apply filt_img_length. Qed.
Lemma sizes_pos : 0 < M / p2 k /\ 0 < N / p2 k.
Proof. split; now apply div_p2_pos. Qed.
(** ifft, modulus and rfft. *)
Lemma modulus_step {A} (cont : nd K -> res A) :
  bind (np2_ifft o (of_imgs Complex [B] (M / p2 k) (N / p2 k) (map (filt_img f l k M N) ims)))
    (fun y => bind (np_modulus o y) (fun y => bind (np2_rfft o y) cont)) =
  cont (of_imgs Complex [B] (M / p2 k) (N / p2 k) (map (sep2 o (o_fft o) (M / p2 k) (N / p2 k)) (map (env_img f l k M N) ims))).
Proof.
  destruct sizes_pos as [P1 P2]. rewrite np2_ifft_of by first [exact filts_ok|assumption]. cbn [bind].
  rewrite np2_modulus_of by discriminate. cbn [bind]. rewrite !map_map.
  rewrite np2_rfft_of; [|apply (imgs_ok_map _ M N); [|exact Hi]; intros im H; now apply env_img_length|assumption|assumption].
  cbn [bind]. now rewrite map_map.
Qed.
(** irfft and unpad. *)
Lemma real_step {A} (cont : nd K -> res A) :
  bind (np2_irfft o (of_imgs Complex [B] (M / p2 k) (N / p2 k) (map (filt_img f l k M N) ims))) (fun y => bind (np2_unpad o y) cont) =
  cont (of_imgs Real [B] (M / p2 k - 2) (N / p2 k - 2) (map (low_img f l k M N) ims)).
Proof.
  destruct sizes_pos as [P1 P2]. rewrite np2_irfft_of by first [exact filts_ok|assumption]. cbn [bind]. rewrite map_map.
  rewrite np2_unpad_of.
  2:{ apply (imgs_ok_map _ M N); [|exact Hi]. intros im H. rewrite map_length. apply (sep2_length o); [apply Ho|now apply filt_img_length]. }
  cbn [bind]. now rewrite map_map.
Qed.
Lemma lowpass_rows J psi : (0 < k)%Z ->
  lowpass2 be (mk_filter2 (g_levels f) J psi) (of_imgs Complex [B] M N (map (sep2 o (o_fft o) M N) ims)) l k =
  Ok (of_imgs Real [B] (M / p2 k - 2) (N / p2 k - 2) (map (low_img f l k M N) ims)).
Proof.
  intros Hp. unfold lowpass2. cbn [g_levels b2_cdgmm b2_subsample b2_irfft b2_unpad numpy_backend2].
  etransitivity; [exact (filt_step (fun S_c => bind (np2_irfft o S_c) (fun S_r => np2_unpad o S_r)))|].
  destruct (Z.ltb_spec 0 k); [|lia].
  etransitivity; [|exact (real_step (fun y => Ok y))]. destruct (np2_irfft o _) as [y|e]; cbn [bind]; [|reflexivity]. now destruct (np2_unpad o y).
Qed.
End Steps.

(** ** The transform *)
Variables (J : Z) (phi : filter2) (psi : list filter2) (M N : nat).
(** What the filters must satisfy (met by filter_bank): M, N are the padded sizes. *)
Record ready2 : Prop := {
  rd_J : (1 <= J)%Z;
  rd_M : 0 < M; rd_N : 0 < N;
  rd_dM : Nat.divide (p2 J) M; rd_dN : Nat.divide (p2 J) N;
  rd_phi : forall l, (0 <= l < J)%Z -> level2_ok phi l (M / p2 l) (N / p2 l);
  rd_j : forall f, In f psi -> (0 <= g_j f < J)%Z;
  rd_psi0 : forall f, In f psi -> level2_ok f 0 M N;
  rd_psi : forall f l, In f psi -> (0 <= l < g_j f)%Z -> level2_ok f l (M / p2 l) (N / p2 l)
}.
Hypothesis (Hr : ready2).

(** What is computed from a padded image. *)
Definition S0_img (im : list K) : list K := low_img phi 0 J M N im.
Definition U1_img (f1 : filter2) (im : list K) : list K := env_img f1 0 (g_j f1) M N im.
Definition S1_img (f1 : filter2) (im : list K) : list K := low_img phi (g_j f1) (J - g_j f1) (M / p2 (g_j f1)) (N / p2 (g_j f1)) (U1_img f1 im).
Definition U2_img (f1 f2 : filter2) (im : list K) : list K :=
  env_img f2 (g_j f1) (g_j f2 - g_j f1) (M / p2 (g_j f1)) (N / p2 (g_j f1)) (U1_img f1 im).
Definition S2_img (f1 f2 : filter2) (im : list K) : list K :=
  low_img phi (g_j f2) (J - g_j f2) (M / p2 (g_j f2)) (N / p2 (g_j f2)) (U2_img f1 f2 im).
Notation m := (M / p2 J - 2).
Notation n := (N / p2 J - 2).
Definition path0 (pre : list nat) (ims : list (list K)) : path2 (nd K) := mk_path2 (of_imgs Real pre m n (map S0_img ims)) [] [] [].
Definition path1 (pre : list nat) (ims : list (list K)) (np : nat * filter2) : path2 (nd K) :=
  mk_path2 (of_imgs Real pre m n (map (S1_img (snd np)) ims)) [g_j (snd np)] [fst np] [g_theta (snd np)].
Definition path12 (pre : list nat) (ims : list (list K)) (np np' : nat * filter2) : path2 (nd K) :=
  mk_path2 (of_imgs Real pre m n (map (S2_img (snd np) (snd np')) ims)) [g_j (snd np); g_j (snd np')] [fst np; fst np'] [g_theta (snd np); g_theta (snd np')].
Definition later (np np' : nat * filter2) : bool := (g_j (snd np) <? g_j (snd np'))%Z.

Lemma div_div_p2 a b k : (0 <= a)%Z -> (0 <= b)%Z -> k / p2 a / p2 b = k / p2 (a + b).
Proof. intros Ha Hb. rewrite Nat.div_div by (pose proof (p2_pos a); pose proof (p2_pos b); lia). now rewrite p2_add. Qed.
Lemma divide_div a b k : (0 <= a <= b)%Z -> Nat.divide (p2 b) k -> Nat.divide (p2 (b - a)) (k / p2 a).
Proof.
  intros Hab [c ->]. replace b with (a + (b - a))%Z at 2 by lia. rewrite p2_add by lia. exists c.
  replace (c * (p2 a * p2 (b - a))) with (c * p2 (b - a) * p2 a) by lia. apply Nat.div_mul. pose proof (p2_pos a). lia.
Qed.
Lemma divide_le a b k : (0 <= a <= b)%Z -> Nat.divide (p2 b) k -> Nat.divide (p2 a) k.
Proof.
  intros Hab [c ->]. replace b with (a + (b - a))%Z by lia. rewrite p2_add by lia. exists (c * p2 (b - a)). lia.
Qed.
Lemma level_pos a : (0 <= a <= J)%Z -> 0 < M / p2 a /\ 0 < N / p2 a.
Proof. destruct Hr. intros Ha. split; apply div_p2_pos; try assumption; now apply (divide_le a J). Qed.
Lemma phi_eta : phi = mk_filter2 (g_levels phi) (g_j phi) (g_theta phi).
Proof. now destruct phi. Qed.

(** Low-pass of images at scale 2**a. *)
Lemma lowpass_at B a ims : (0 <= a < J)%Z -> imgs_ok [B] (M / p2 a) (N / p2 a) ims ->
  lowpass2 be phi (of_imgs Complex [B] (M / p2 a) (N / p2 a) (map (sep2 o (o_fft o) (M / p2 a) (N / p2 a)) ims)) a (J - a) =
  Ok (of_imgs Real [B] m n (map (low_img phi a (J - a) (M / p2 a) (N / p2 a)) ims)).
Proof.
  intros Ha Hi. destruct (level_pos a) as [P1 P2]; [lia|]. destruct Hr. rewrite phi_eta at 1.
  rewrite (lowpass_rows B (M / p2 a) (N / p2 a) ims phi a (J - a)) by first [assumption|lia|apply rd_phi0; lia|apply divide_div; [lia|assumption]].
  rewrite !div_div_p2 by lia. now replace (a + (J - a))%Z with J by lia.
Qed.

Definition all_paths (pre : list nat) (ims : list (list K)) (max_order : Z) : list (path2 (nd K)) :=
  path0 pre ims :: map (path1 pre ims) (enumerate psi) ++
  (if (max_order <? 2)%Z then [] else flat_map (fun np => map (path12 pre ims np) (List.filter (later np) (enumerate psi))) (enumerate psi)).

Section Run.
Variables (B : nat) (ims : list (list K)).
Hypothesis (Hi : imgs_ok [B] M N ims).
Lemma U1_ok f : In f psi -> imgs_ok [B] (M / p2 (g_j f)) (N / p2 (g_j f)) (map (U1_img f) ims).
Proof.
  intros Hf. apply (imgs_ok_map _ M N); [|exact Hi]. intros im H. pose proof (rd_j Hr f Hf). apply env_img_length; [now apply (rd_psi0 Hr)|lia|exact H].
Qed.
Lemma second_rows n1 f1 np' : In f1 psi -> In (snd np') psi ->
  second2 be J phi n1 (g_j f1) (g_theta f1) (of_imgs Complex [B] (M / p2 (g_j f1)) (N / p2 (g_j f1))
     (map (sep2 o (o_fft o) (M / p2 (g_j f1)) (N / p2 (g_j f1))) (map (U1_img f1) ims))) np' =
  Ok (if later (n1, f1) np' then [path12 [B] ims (n1, f1) np'] else []).
Proof.
  intros H1 H2. destruct np' as [n2 f2]. cbn [snd] in H2. unfold second2, later. cbn [snd].
  pose proof (rd_j Hr f1 H1). pose proof (rd_j Hr f2 H2).
  destruct (Z.leb_spec (g_j f2) (g_j f1)); destruct (Z.ltb_spec (g_j f1) (g_j f2)); try lia; [reflexivity|].
  cbn [b2_cdgmm b2_subsample b2_ifft b2_modulus b2_rfft numpy_backend2].
  destruct (level_pos (g_j f1)) as [P1 P2]; [lia|]. set (a := g_j f1) in *. set (b := g_j f2) in *.
  assert (D1 : Nat.divide (p2 (b - a)) (M / p2 a)) by (apply divide_div; [lia|apply (divide_le b J); [lia|apply (rd_dM Hr)]]).
  assert (D2 : Nat.divide (p2 (b - a)) (N / p2 a)) by (apply divide_div; [lia|apply (divide_le b J); [lia|apply (rd_dN Hr)]]).
  assert (L : level2_ok f2 a (M / p2 a) (N / p2 a)) by (apply (rd_psi Hr); [assumption|fold b; lia]).
  pose proof (U1_ok f1 H1) as HU. fold a in HU.
  rewrite (filt_step B (M / p2 a) (N / p2 a) (map (U1_img f1) ims) f2 a (b - a)) by first [assumption|lia].
  destruct (Z.ltb_spec 0 (b - a)); [|lia].
  rewrite (modulus_step B (M / p2 a) (N / p2 a) (map (U1_img f1) ims) f2 a (b - a)) by first [assumption|lia].
  rewrite !div_div_p2 by lia. replace (a + (b - a))%Z with b by lia.
  rewrite (map_map (U1_img f1) (env_img f2 a (b - a) (M / p2 a) (N / p2 a))).
  assert (HU2 : imgs_ok [B] (M / p2 b) (N / p2 b) (map (U2_img f1 f2) ims)).
  { apply (imgs_ok_map _ M N); [|exact Hi]. intros im Him. unfold U2_img. fold a b. rewrite env_img_length; [|assumption|lia|].
    - rewrite !div_div_p2 by lia. now replace (a + (b - a))%Z with b by lia.
    - unfold U1_img. fold a. apply env_img_length; [now apply (rd_psi0 Hr)|lia|exact Him]. }
  change (fun x => env_img f2 a (b - a) (M / p2 a) (N / p2 a) (U1_img f1 x)) with (U2_img f1 f2).
  rewrite lowpass_at by first [lia|exact HU2]. cbn [bind]. rewrite map_map. reflexivity.
Qed.
Lemma first_rows max_order np : In (snd np) psi ->
  first2 be J phi psi max_order (of_imgs Complex [B] M N (map (sep2 o (o_fft o) M N) ims)) np =
  Ok (path1 [B] ims np, if (max_order <? 2)%Z then [] else map (path12 [B] ims np) (List.filter (later np) (enumerate psi))).
Proof.
  intros Hf. destruct np as [n1 f1]. cbn [snd] in Hf. unfold first2. cbn [b2_cdgmm b2_subsample b2_ifft b2_modulus b2_rfft numpy_backend2].
  pose proof (rd_j Hr f1 Hf). set (a := g_j f1) in *.
  rewrite (filt_first B M N ims f1 0 a) by first [assumption|lia|apply (rd_M Hr)|apply (rd_N Hr)|now apply (rd_psi0 Hr)|apply (divide_le a J); [lia|first [apply (rd_dM Hr)|apply (rd_dN Hr)]]].
  rewrite (modulus_step B M N ims f1 0 a) by first [assumption|lia|apply (rd_M Hr)|apply (rd_N Hr)|now apply (rd_psi0 Hr)|apply (divide_le a J); [lia|first [apply (rd_dM Hr)|apply (rd_dN Hr)]]].
  change (env_img f1 0 a M N) with (U1_img f1). pose proof (U1_ok f1 Hf) as HU. fold a in HU.
  rewrite lowpass_at by first [lia|exact HU]. cbn [bind]. rewrite map_map.
  destruct (max_order <? 2)%Z; [reflexivity|].
  assert (E : mapM (second2 be J phi n1 a (g_theta f1) (of_imgs Complex [B] (M / p2 a) (N / p2 a) (map (sep2 o (o_fft o) (M / p2 a) (N / p2 a)) (map (U1_img f1) ims))))
                (enumerate psi) = Ok (map (fun np' => if later (n1, f1) np' then [path12 [B] ims (n1, f1) np'] else []) (enumerate psi))).
  { rewrite <- mapM_Ok. apply mapM_ext. intros np' Hin. apply second_rows; [exact Hf|].
    destruct np' as [n2 f2]. apply In_enumerate in Hin. cbn. eapply nth_error_In, Hin. }
  rewrite E. cbn [bind]. do 2 f_equal. clear E. induction (enumerate psi) as [|np' r IH]; [reflexivity|]. cbn [map concat List.filter].
  destruct (later (n1, f1) np'); cbn [map]; rewrite IH; reflexivity.
Qed.
Lemma paths_rows pad x max_order : pad x = Ok (of_imgs Real [B] M N ims) -> paths2 be J phi psi pad max_order x = Ok (all_paths [B] ims max_order).
Proof.
  intros Hp. unfold paths2. rewrite Hp. cbn [bind b2_rfft numpy_backend2]. rewrite np2_rfft_of by first [assumption|apply (rd_M Hr)|apply (rd_N Hr)]. cbn [bind].
  pose proof (lowpass_at B 0 ims) as E. rewrite !div_p2_0, Z.sub_0_r in E. rewrite E by first [destruct Hr; lia|exact Hi]. cbn [bind].
  assert (E1 : mapM (first2 be J phi psi max_order (of_imgs Complex [B] M N (map (sep2 o (o_fft o) M N) ims))) (enumerate psi) =
    Ok (map (fun np => (path1 [B] ims np, if (max_order <? 2)%Z then [] else map (path12 [B] ims np) (List.filter (later np) (enumerate psi)))) (enumerate psi))).
  { rewrite <- mapM_Ok. apply mapM_ext. intros np Hin. apply first_rows. destruct np as [n1 f1]. apply In_enumerate in Hin. cbn. eapply nth_error_In, Hin. }
  rewrite E1. cbn [bind]. unfold all_paths. do 2 f_equal. rewrite !map_map. cbn [fst snd]. f_equal.
  destruct (max_order <? 2)%Z; [|now rewrite flat_map_concat_map].
  clear. induction (enumerate psi) as [|np r IH]; [reflexivity|]. cbn [map concat app]. exact IH.
Qed.
End Run.
Lemma all_paths_ok pre ims max_order p : imgs_ok pre M N ims -> In p (all_paths pre ims max_order) ->
  exists F, (forall im, List.length im = M * N -> List.length (F im) = m * n) /\ r_coef p = of_imgs Real pre m n (map F ims).
Proof.
  intros Hi. assert (GS : forall a, (0 <= a <= J)%Z -> M / p2 a / p2 (J - a) = M / p2 J /\ N / p2 a / p2 (J - a) = N / p2 J).
  { intros a Ha. rewrite !div_div_p2 by lia. now replace (a + (J - a))%Z with J by lia. }
  assert (Gj : forall np, In np (enumerate psi) -> (0 <= g_j (snd np) < J)%Z).
  { intros [i f] H. apply In_enumerate in H. apply (rd_j Hr). cbn. eapply nth_error_In, H. }
  intros [<-|Hin].
  - exists S0_img. split; [|reflexivity]. intros im _. unfold S0_img. apply low_img_length.
  - apply in_app_iff in Hin as [Hin|Hin].
    + apply in_map_iff in Hin as (np & <- & Hin). exists (S1_img (snd np)). split; [|reflexivity]. intros im _. unfold S1_img. rewrite low_img_length.
      specialize (Gj np Hin). destruct (GS (g_j (snd np)) ltac:(lia)) as [-> ->]. reflexivity.
    + destruct (max_order <? 2)%Z; [destruct Hin|]. apply in_flat_map in Hin as (np & Hn & Hin). apply in_map_iff in Hin as (np' & <- & Hin).
      apply filter_In in Hin as [Hin _]. exists (S2_img (snd np) (snd np')). split; [|reflexivity]. intros im _. unfold S2_img. rewrite low_img_length.
      specialize (Gj np' Hin). destruct (GS (g_j (snd np')) ltac:(lia)) as [-> ->]. reflexivity.
Qed.
End Rows2.
