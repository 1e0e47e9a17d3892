(** Evaluation of modulus, averaging, unpadding and formatting of the paths of joint time-frequency scattering
    with the NumPy backend. *)
From Coq Require Import String ZArith List Bool Arith Lia.
From Verif Require Import Base BaseProofs NdArray Backend Core1d Utils1d NdProofs Rows1d Mats Jtfs JtfsProofs JtfsRows.
Import ListNotations.
Local Open Scope nat_scope.

Lemma range_step_ok mx s : (0 <= mx)%Z -> (0 < s)%Z ->
  range_step mx (PInt s) = Ok (map (fun i => Z.of_nat i * s)%Z (seq 0 (Z.to_nat ((mx + s - 1) / s)))).
Proof.
  intros Hm Hs. unfold range_step. destruct (Z.eqb_spec s 0); [lia|]. destruct (Z.ltb_spec s 0); [lia|]. reflexivity.
Qed.
Lemma enumerate_map_seq {A} (g : nat -> A) n : enumerate (map g (seq 0 n)) = map (fun i => (i, g i)) (seq 0 n).
Proof.
  unfold enumerate. assert (G : forall k i, enum_from i (map g (seq i k)) = map (fun i => (i, g i)) (seq i k)).
  { induction k as [|k IH]; intros i; [reflexivity|]. cbn [seq map enum_from]. now rewrite IH. }
  apply G.
Qed.

Lemma py_index_last (l : list Z) : l <> [] -> py_index l (-1) = Ok (List.last l 0%Z).
Proof.
  intros H. destruct (exists_last H) as (l' & x & ->). rewrite last_last. unfold py_index.
  rewrite app_length. cbn [List.length]. destruct (Z.ltb_spec (-1) 0); [|lia].
  replace (-1 + Z.of_nat (List.length l' + 1))%Z with (Z.of_nat (List.length l')) by lia.
  destruct (Z.ltb_spec (Z.of_nat (List.length l')) 0); [lia|]. rewrite Nat2Z.id.
  rewrite nth_error_app2, Nat.sub_diag by lia. reflexivity.
Qed.

Section Fmt.
Context {K P : Type} (o : ops K) (Ho : ops_ok o).
Notation filter := (filter (nd K) P).
Notation np := (numpy_backend o).
Notation z := (o_zero o).
Variables (phi : filter) (ls : Z) (a : avg) (phi_fr : filter) (lsf : Z) (a_fr : avg) (out format : string).
Variables (B : nat) (rows : list (list K)).
Hypothesis (HB : List.length rows = B).

Definition jlast (q : jpath unit) : Z := List.last (q_j q) 0%Z.
Definition second (q : jpath unit) : bool := Nat.ltb 1 (List.length (q_n q)).
(** Number of time samples and effect on a row of the time averaging. *)
Definition tlen (q : jpath unit) (n : nat) : nat :=
  match a with Global => 1 | Local => if second q then n / p2 (ls - jlast q) else n | NoAvg => n end.
Definition tmap (q : jpath unit) (n : nat) (r : list K) : list K :=
  match a with
  | Global => [osum o r]
  | Local => if second q then r_low o phi (jlast q) (ls - jlast q) n r else r
  | NoAvg => r
  end.
(** The same for the frequency averaging, on a matrix with [m] rows and [n] columns; [kphi] is the level of the
    lowpass filter that is used. *)
Definition kphi (q : jpath unit) : Z := Z.min (q_j_fr q) (f_j phi_fr).
Definition flen (q : jpath unit) (m : nat) : nat :=
  if (q_spin q =? 0)%Z then m else match a_fr with NoAvg => m | Global => 1 | Local => m / p2 (lsf - kphi q) end.
Definition fmap (q : jpath unit) (m n : nat) (M : matrix K) : matrix K :=
  if (q_spin q =? 0)%Z then M else
  match a_fr with
  | NoAvg => M
  | Global => tr z 1 (map (fun c => [osum o c]) (tr z n M))
  | Local => tr z (m / p2 (lsf - kphi q)) (map (r_low o phi_fr (kphi q) (lsf - kphi q) m) (tr z n M))
  end.
(** Frequency unpadding, [s] being the stride of the rows. *)
Definition joint_array : bool := String.eqb out "array" && String.eqb format "joint".
Definition ulen (q : jpath unit) (s : Z) (m : nat) : nat :=
  if joint_array then m else Nat.min (Z.to_nat (1 + q_n1_max q / s)) m.
Definition umap (q : jpath unit) (s : Z) (M : matrix K) : matrix K :=
  if joint_array then M else firstn (Z.to_nat (1 + q_n1_max q / s)) M.
(** All of it. *)
Definition gmap (q : jpath unit) (s : Z) (m n : nat) (M : matrix K) : matrix K :=
  umap q s (fmap q m (tlen q n) (map (tmap q n) (map (map (o_abs o)) M))).

Record fmt_ok (q : jpath unit) (s : Z) (m n : nat) : Prop := {
  fo_m : 0 < m; fo_n : 0 < n;
  fo_time : a = Local -> second q = true ->
    q_j q <> [] /\ (0 <= jlast q <= ls)%Z /\ level_ok phi (jlast q) n /\ Nat.divide (p2 (ls - jlast q)) n;
  fo_fr : a_fr = Local -> q_spin q <> 0%Z ->
    (0 <= kphi q <= lsf)%Z /\ level_ok phi_fr (kphi q) m /\ Nat.divide (p2 (lsf - kphi q)) m;
  fo_stride : q_n1_stride (restride lsf a_fr q) = PInt s; fo_s : (0 < s)%Z;
  fo_max : (0 <= q_n1_max q)%Z
}.

Lemma gmats_ok (G : list K -> matrix K) m n : (forall r, In r rows -> mat_ok m n (G r)) -> mats_ok B m n (map G rows).
Proof. intros H. split; [now rewrite map_length|]. now apply Forall_map, Forall_forall. Qed.

Lemma tlen_pos q s m n : fmt_ok q s m n -> 0 < tlen q n.
Proof.
  intros F. pose proof (fo_n _ _ _ _ F). unfold tlen. destruct a eqn:Ea; try lia. destruct (second q) eqn:E; [|lia].
  destruct (fo_time _ _ _ _ F Ea E) as (_ & _ & _ & D). now apply div_p2_pos.
Qed.
Lemma flen_pos q s m n : fmt_ok q s m n -> 0 < flen q m.
Proof.
  intros F. pose proof (fo_m _ _ _ _ F). unfold flen. destruct (Z.eqb_spec (q_spin q) 0); [lia|].
  destruct a_fr eqn:Ea; try lia. destruct (fo_fr _ _ _ _ F Ea n0) as (_ & _ & D). now apply div_p2_pos.
Qed.
Lemma tmap_length q n r : List.length r = n -> List.length (tmap q n r) = tlen q n.
Proof.
  intros E. unfold tmap, tlen. destruct a; [|reflexivity|exact E]. destruct (second q); [|exact E]. apply (r_low_length o Ho).
Qed.
Lemma fmap_ok q m n M : mat_ok m n M -> mat_ok (flen q m) n (fmap q m n M).
Proof.
  intros HM. unfold fmap, flen. destruct (q_spin q =? 0)%Z; [exact HM|]. destruct a_fr; [| |exact HM].
  - apply tr_ok. eapply mat_ok_rows; [|apply tr_ok; exact HM]. intros c _. apply (r_low_length o Ho).
  - apply tr_ok. eapply mat_ok_rows; [|apply tr_ok; exact HM]. reflexivity.
Qed.
Lemma umap_ok q s m n M : mat_ok m n M -> mat_ok (ulen q s m) n (umap q s M).
Proof. intros HM. unfold umap, ulen. destruct joint_array; [exact HM|]. now apply firstn_mat. Qed.
Lemma gmap_ok q s m n M : mat_ok m n M -> mat_ok (ulen q s (flen q m)) (tlen q n) (gmap q s m n M).
Proof.
  intros HM. unfold gmap. apply umap_ok, fmap_ok. eapply mat_ok_rows; [intros r E; apply tmap_length; exact E|].
  eapply mat_ok_rows; [|exact HM]. intros r E. now rewrite map_length.
Qed.

Notation cf d m n G := (of_mats d B m n (map G rows)).

(** The result of formatting one path. *)
Definition fmt_paths (q : jpath unit) (s : Z) (m n : nat) (G : list K -> matrix K) : list (jpath (nd K)) :=
  let q' := restride lsf a_fr q in
  let G' := fun r => gmap q s m n (G r) in
  if String.eqb format "joint" then
    [set_coef (cf Real (ulen q s (flen q m)) (tlen q n) G') (set_order (List.length (q_n q)) q')]
  else
    map (fun i => set_coef (of_rows Real [B; 1; 1] (tlen q n) (map (fun r => nth i (G' r) []) rows)) (label q' (Z.of_nat i * s)))
        (seq 0 (Z.to_nat ((q_n1_max q + s - 1) / s))).

Theorem format_rows (q : jpath unit) s m n G : format = "joint"%string \/ format = "time"%string ->
  fmt_ok q s m n -> (forall r, In r rows -> mat_ok m n (G r)) ->
  (format = "time"%string -> Z.to_nat ((q_n1_max q + s - 1) / s) <= flen q m) ->
  format_path np false phi ls a phi_fr lsf a_fr out format (set_coef (cf Complex m n G) q) = Ok (fmt_paths q s m n G).
Proof.
  intros Hfmt F HG Hlab. unfold format_path. cbn [numpy_backend be_modulus].
  pose proof (gmats_ok G m n HG) as M0. unfold of_mats at 1. cbn [q_coef set_coef].
  rewrite np_modulus_of by discriminate. cbn [bind].
  (* time averaging *)
  set (G1 := fun r => map (map (o_abs o)) (G r)).
  assert (HG1 : forall r, In r rows -> mat_ok m n (G1 r)).
  { intros r Hr. eapply mat_ok_rows; [|apply HG; exact Hr]. intros x E. now rewrite map_length. }
  rewrite map_concat_mats, map_map. fold G1. change (of_rows Real [B; 1; m] n (concat (map G1 rows))) with (cf Real m n G1).
  set (G2 := fun r => map (tmap q n) (G1 r)).
  assert (HG2 : forall r, In r rows -> mat_ok m (tlen q n) (G2 r)).
  { intros r Hr. eapply mat_ok_rows; [|apply HG1; exact Hr]. intros x E. now apply tmap_length. }
  pose proof (gmats_ok G1 m n HG1) as M1. pose proof (mats_rows _ _ _ _ M1) as R1.
  match goal with |- bind (match a with _ => _ end) _ = _ =>
    assert (E1 : (match a with
      | Local => if Nat.ltb 1 (List.length (q_n (set_coef (cf Real m n G1) (set_coef (cf Complex m n G) q))))
                 then time_averaging np phi ls (set_coef (cf Real m n G1) (set_coef (cf Complex m n G) q))
                 else Ok (set_coef (cf Real m n G1) (set_coef (cf Complex m n G) q))
      | Global => (c <- np_average_global o (cf Real m n G1) ;; Ok (set_coef c (set_coef (cf Real m n G1) (set_coef (cf Complex m n G) q))))%res
      | NoAvg => Ok (set_coef (cf Real m n G1) (set_coef (cf Complex m n G) q))
      end) = Ok (set_coef (cf Real m (tlen q n) G2) q)) end.
  { unfold tlen, G2, tmap. destruct a eqn:Ea.
    - change (Nat.ltb 1 (List.length (q_n (set_coef (cf Real m n G1) (set_coef (cf Complex m n G) q))))) with (second q).
      destruct (second q) eqn:E2.
      + destruct (fo_time _ _ _ _ F Ea E2) as (T1 & T2 & T3 & T4). unfold time_averaging.
        cbn [set_coef q_j q_coef numpy_backend be_rfft be_cdgmm be_subsample be_irfft].
        rewrite py_index_last by exact T1. fold (jlast q). cbn [bind]. unfold of_mats at 1.
        rewrite np_rfft_of by (try exact R1; apply (fo_n _ _ _ _ F)). cbn [bind].
        destruct (low_rows o Ho [B; 1; m] n _ R1 (fo_n _ _ _ _ F) phi (jlast q) (ls - jlast q)
           (fun S => Ok (set_coef S (set_coef (cf Real m n G1) (set_coef (cf Complex m n G) q))))) as [E _]; try assumption; try lia.
        cbv beta in E. unfold of_mats. rewrite <- (map_map G1 (map (r_low o phi (jlast q) (ls - jlast q) n))), <- map_concat_mats. exact E.
      + rewrite (map_ext (fun r => map (fun x => x) (G1 r)) G1) by (intros; apply map_id). reflexivity.
    - unfold of_mats at 1. rewrite np_average_of by exact R1. cbn [bind]. rewrite map_concat_mats, map_map. reflexivity.
    - rewrite (map_ext (fun r => map (fun x => x) (G1 r)) G1) by (intros; apply map_id). reflexivity. }
  cbn [numpy_backend be_average_global]. cbn [set_coef q_coef] in E1 |- *. change (numpy_backend o) with np. rewrite E1. clear E1. cbn [bind].
  (* frequency averaging *)
  set (n' := tlen q n) in *. set (G3 := fun r => fmap q m n' (G2 r)).
  assert (HG3 : forall r, In r rows -> mat_ok (flen q m) n' (G3 r)) by (intros r Hr; apply fmap_ok; now apply HG2).
  pose proof (gmats_ok G2 m n' HG2) as M2.
  assert (Hn' : 0 < n') by (eapply tlen_pos; exact F).
  match goal with |- bind ?e _ = _ => assert (E2 : e = Ok (set_coef (cf Real (flen q m) n' G3) (restride lsf a_fr q))) end.
  { unfold flen, G3, fmap, restride. cbn [set_coef q_spin]. destruct a_fr eqn:Ea.
    - destruct (Z.eqb_spec (q_spin q) 0) as [E0|E0]; [reflexivity|]. destruct (fo_fr _ _ _ _ F Ea E0) as (T1 & T3 & T4).
      unfold frequency_averaging. cbn [numpy_backend be_swap be_rfft be_cdgmm be_subsample be_irfft].
      change (q_coef (set_coef ?x _)) with x. change (q_j_fr (set_coef _ _)) with (q_j_fr q).
      rewrite np_swap_of by exact M2. cbn [bind]. change (Z.min (q_j_fr q) (f_j phi_fr)) with (kphi q). unfold of_mats at 1.
      assert (MT : mats_ok B n' m (map (tr z n') (map G2 rows))) by (eapply mats_ok_map; [|exact M2]; intros M HM; now apply tr_ok).
      pose proof (mats_rows _ _ _ _ MT) as RT.
      rewrite np_rfft_of by (try exact RT; apply (fo_m _ _ _ _ F)). cbn [bind].
      destruct (low_rows o Ho [B; 1; n'] m _ RT (fo_m _ _ _ _ F) phi_fr (kphi q) (lsf - kphi q)
        (fun S_2_T => (S_2 <- np_swap o S_2_T ;; Ok (set_stride (pow2 lsf) (set_coef S_2
           (set_coef (cf Real m n' G2) q))))%res)) as [E _]; try assumption; try lia.
      rewrite E. rewrite map_concat_mats.
      change (of_rows Real [B; 1; n'] (m / p2 (lsf - kphi q)) (concat ?x)) with (of_mats Real B n' (m / p2 (lsf - kphi q)) x).
      rewrite np_swap_of.
      + cbn [bind]. rewrite !map_map. reflexivity.
      + eapply mats_ok_map; [|exact MT]. intros M HM. eapply mat_ok_rows; [|exact HM]. intros c _. apply (r_low_length o Ho).
    - destruct (Z.eqb_spec (q_spin q) 0) as [E0|E0]; [reflexivity|].
      unfold frequency_averaging. cbn [numpy_backend be_swap be_average_global].
      change (q_coef (set_coef ?x _)) with x. change (q_n1_max (set_coef _ _)) with (q_n1_max q).
      rewrite np_swap_of by exact M2. cbn [bind].
      assert (MT : mats_ok B n' m (map (tr z n') (map G2 rows))) by (eapply mats_ok_map; [|exact M2]; intros M HM; now apply tr_ok).
      pose proof (mats_rows _ _ _ _ MT) as RT. unfold of_mats at 1. rewrite np_average_of by exact RT. cbn [bind].
      rewrite map_concat_mats. change (of_rows Real [B; 1; n'] 1 (concat ?x)) with (of_mats Real B n' 1 x). rewrite np_swap_of.
      + cbn [bind]. rewrite !map_map. reflexivity.
      + eapply mats_ok_map; [|exact MT]. intros M HM. eapply mat_ok_rows; [|exact HM]. reflexivity.
    - destruct (q_spin q =? 0)%Z; reflexivity. }
  rewrite E2. clear E2. cbn [bind].
  (* frequency unpadding *)
  pose proof (gmats_ok G3 (flen q m) n' HG3) as M3.
  set (G4 := fun r => umap q s (G3 r)).
  assert (HG4 : forall r, In r rows -> mat_ok (ulen q s (flen q m)) n' (G4 r)) by (intros r Hr; apply umap_ok; now apply HG3).
  assert (Emx : q_n1_max (restride lsf a_fr q) = q_n1_max q) by (unfold restride; destruct a_fr; try reflexivity; destruct (_ =? _)%Z; reflexivity).
  assert (En : q_n (restride lsf a_fr q) = q_n q) by (unfold restride; destruct a_fr; try reflexivity; destruct (_ =? _)%Z; reflexivity).
  match goal with |- bind ?e _ = _ => assert (E3 : e = Ok (set_coef (cf Real (ulen q s (flen q m)) n' G4) (restride lsf a_fr q))) end.
  { fold joint_array. unfold ulen, G4, umap. destruct joint_array; [reflexivity|].
    cbn [set_coef q_coef q_n1_max q_n1_stride numpy_backend be_unpad_frequency]. rewrite Emx, (fo_stride _ _ _ _ F).
    rewrite np_unpad_frequency_of by (try exact M3; apply (fo_s _ _ _ _ F)). cbn [bind]. rewrite map_map. reflexivity. }
  rewrite E3. clear E3. cbn [bind]. unfold fmt_paths.
  change (fun r => gmap q s m n (G r)) with G4. fold n'.
  destruct (String.eqb_spec format "joint") as [Ej|Ej].
  - cbn [set_coef q_n]. rewrite En. reflexivity.
  - destruct Hfmt as [Hfmt|Hfmt]; [congruence|]. rewrite Hfmt. cbn [String.eqb Ascii.eqb Bool.eqb].
    unfold time_formatting. cbn [set_coef q_coef q_n1_max q_n1_stride q_n numpy_backend be_split_frequency]. rewrite Emx, (fo_stride _ _ _ _ F), En.
    pose proof (gmats_ok G4 _ n' HG4) as M4. pose proof (fo_s _ _ _ _ F) as Hs. pose proof (fo_max _ _ _ _ F) as Hmx.
    pose proof (flen_pos _ _ _ _ F) as Hfl. specialize (Hlab Hfmt).
    assert (Hul : Z.to_nat ((q_n1_max q + s - 1) / s) <= ulen q s (flen q m)).
    { unfold ulen. destruct joint_array; [exact Hlab|]. apply Nat.min_glb; [|exact Hlab]. apply Z2Nat.inj_le.
      - apply Z.div_pos; lia.
      - pose proof (Z.div_pos (q_n1_max q) s). lia.
      - replace (1 + q_n1_max q / s)%Z with ((q_n1_max q + 1 * s) / s)%Z by (rewrite Z.div_add by lia; lia). apply Z.div_le_mono; lia. }
    assert (0 < ulen q s (flen q m)).
    { unfold ulen. destruct joint_array; [exact Hfl|]. pose proof (Z.div_pos (q_n1_max q) s). lia. }
    rewrite np_split_of by (try exact M4; assumption). cbn [bind].
    rewrite range_step_ok by assumption. cbn [bind]. rewrite enumerate_map_seq, mapM_map. apply mapM_Ok. intros i Hi. apply in_seq in Hi.
    match goal with |- bind (py_index ?l ?i) _ = _ =>
      assert (Ei : py_index l i = Ok (of_rows Real [B; 1; 1] n' (map (fun M => nth (Z.to_nat i) M []) (map G4 rows)))) end.
    { apply py_index_nonneg; [lia|]. rewrite Nat2Z.id, nth_error_map, (nth_error_nth' _ 0) by (rewrite seq_length; lia).
      rewrite seq_nth by lia. reflexivity. }
    rewrite Ei. cbn [bind]. rewrite map_map, Nat2Z.id. unfold label. rewrite En. reflexivity.
Qed.
End Fmt.
