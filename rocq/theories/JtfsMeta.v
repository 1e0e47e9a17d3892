(** meta() of JTFS against the paths of scattering(). *)
From Coq Require Import String ZArith List Bool Lia Sorted Permutation.
From Verif Require Import Base BaseProofs NdArray Backend Core1d Utils1d Frontend1d Core1dProofs Frontend1dProofs Jtfs JtfsFront
  JtfsProofs SpecJtfs JtfsKeys JtfsDry.
Import ListNotations.
Local Open Scope Z_scope.
Local Open Scope res_scope.

Lemma isort_id {A} (le : A -> A -> bool) l : StronglySorted (fun a b => le a b = true) l -> isort le l = l.
Proof.
  induction 1 as [|x l S IH F]; [reflexivity|]. cbn [isort]. rewrite IH. destruct l as [|y l]; [reflexivity|].
  cbn [insert]. inversion F; subst. now rewrite H1.
Qed.
Lemma StronglySorted_unmap {A B} (R : B -> B -> Prop) (f : A -> B) l : StronglySorted R (map f l) -> StronglySorted (fun a b => R (f a) (f b)) l.
Proof.
  induction l as [|x l IH]; cbn [map]; intros H; constructor; inversion H; subst; [now apply IH|]. now apply Forall_map.
Qed.
Lemma joint_keys_sorted j1s j2s frs : StronglySorted klt (joint_keys j1s j2s frs).
Proof.
  unfold joint_keys. apply StronglySorted_app; [constructor; constructor|apply StronglySorted_app|].
  - eapply StronglySorted_map; [apply StronglySorted_filter, seq_sorted|]. intros; now apply klt_1.
  - eapply StronglySorted_flat_map with (RA := lt).
    + apply StronglySorted_filter, seq_sorted.
    + intros n2 _. eapply StronglySorted_map; [apply seq_sorted|]. intros. apply klt_2. auto.
    + intros x y u v H Hu Hv. apply in_map_iff in Hu, Hv. destruct Hu as (a & <- & _), Hv as (b & <- & _). apply klt_2. auto.
  - intros x y Hx Hy. apply in_map_iff in Hx. destruct Hx as (a & <- & _). apply in_flat_map in Hy. destruct Hy as (b & _ & Hy).
    apply in_map_iff in Hy. destruct Hy as (c & <- & _). apply klt_len. cbn. lia.
  - intros x y [<-|[]] Hy. apply klt_len. apply in_app_iff in Hy as [Hy|Hy].
    + apply in_map_iff in Hy. destruct Hy as (a & <- & _). cbn. lia.
    + apply in_flat_map in Hy. destruct Hy as (b & _ & Hy). apply in_map_iff in Hy. destruct Hy as (c & <- & _). cbn. lia.
Qed.

(** What is required of the filters: a spun frequential filterbank, non-negative frequential scales, at
    least one first-order wavelet. *)
Record jtfs_ok {W P} (sgn : P -> Z) (s : jtfs W P) : Prop := {
  ok_spun : spun sgn (t_psis_fr s);
  ok_scales : Forall (fun f => 0 <= f_j f) (t_psis_fr s);
  ok_psi1 : s_psi1 (t_base s) <> [];
  ok_stride : forall ls, t_log2_stride_fr s = Ok ls -> 0 <= ls
}.

Section Meta.
Context {X W P : Type} (be : backend X W) (sgn : P -> Z).

Definition jkeys (s : jtfs W P) ls_fr a_fr : list (list nat) :=
  if String.eqb (t_format s) "joint" then joint_keys (map f_j (s_psi1 (t_base s))) (map f_j (s_psi2 (t_base s))) (map (fr_of sgn) (t_psis_fr s))
  else time_keys (map f_j (s_psi1 (t_base s))) (map f_j (s_psi2 (t_base s))) (map (fr_of sgn) (t_psis_fr s)) a_fr ls_fr.
Lemma jkeys_NoDup (s : jtfs W P) ls_fr a_fr : NoDup (jkeys s ls_fr a_fr).
Proof. unfold jkeys. destruct (String.eqb _ _); [apply joint_keys_NoDup|apply time_keys_NoDup]. Qed.

Lemma jpaths_keys (s : jtfs W P) x p0 S : jtfs_ok sgn s -> jpaths be sgn s x = Ok (p0, S) ->
  exists ls_fr a_fr, t_log2_stride_fr s = Ok ls_fr /\ t_average_fr s = Ok a_fr /\ In (t_format s) ["time"; "joint"]%string /\
    p_n p0 = [] /\ p_n p0 :: map q_n S = jkeys s ls_fr a_fr.
Proof.
  intros [O1 O2 O3 O4] H. apply jpaths_erase in H as (ls_fr & a_fr & E1 & E2 & E3 & E4 & E5).
  exists ls_fr, a_fr. repeat (split; [assumption|]). rewrite E3.
  rewrite (map_erase q_n q_n (fun p => eq_refl) _ _ E5). unfold jkeys.
  destruct E4 as [<-|[<-|[]]]; cbn [String.eqb Ascii.eqb Bool.eqb].
  - apply time_keys_ok; auto.
  - now apply joint_keys_ok.
Qed.

Lemma jpaths_slots (s : jtfs W P) x p0 S q : jtfs_ok sgn s -> jpaths be sgn s x = Ok (p0, S) -> In q S ->
  exists n psi, nth_error (t_psis_fr s) n = Some psi /\ q_n_fr q = n /\ q_j_fr q = f_j psi /\ q_spin q = sgn (f_xi psi) /\ last (q_n q) 0%nat = n /\
    List.length (q_n q) = ((if Nat.eqb (List.length (q_j q)) 1 then 1 else 2) + if String.eqb (t_format s) "time" then 1 else 0)%nat /\
    0 <= q_n1_max q /\ exists k, q_n1_stride q = PInt k /\ 0 < k.
Proof.
  intros [O1 O2 O3 O4] H Hq. apply jpaths_erase in H as (ls_fr & a_fr & E1 & E2 & E3 & E4 & E5).
  apply (in_map erase) in Hq. rewrite E5 in Hq. apply in_flat_map in Hq as (sl & Hs & Hq).
  assert (G : exists wj wn m n psi, sl = slot sgn wj wn (Z.of_nat m) (n, psi) /\ nth_error (t_psis_fr s) n = Some psi /\ (0 < m)%nat /\
            List.length wn = (if Nat.eqb (List.length wj) 1 then 0 else 1)%nat).
  { unfold slots in Hs. apply in_app_iff in Hs as [Hs|Hs].
    - unfold slots1 in Hs. rewrite enumerate_nonneg in Hs by assumption. apply in_map_iff in Hs as ([n psi] & <- & Hin).
      apply filter_In in Hin as [Hin _]. apply In_enumerate in Hin. eexists _, _, _, n, psi. repeat split; [exact Hin|].
      destruct (s_psi1 (t_base s)); [congruence|cbn; lia].
    - unfold slots2 in Hs. apply in_flat_map in Hs as ([n2 f2] & _ & Hs). cbn [fst snd] in Hs.
      destruct (Nat.ltb_spec 0 (smaller (s_psi1 (t_base s)) (f_j f2))) as [Hp|]; [|destruct Hs].
      apply in_map_iff in Hs as ([n psi] & <- & Hin). apply In_enumerate in Hin. eexists _, _, _, n, psi. repeat split; [exact Hin|exact Hp]. }
  destruct G as (wj & wn & m & n & psi & -> & Hn & Hm & Hl). exists n, psi. split; [assumption|].
  rewrite Forall_forall in O2. specialize (O2 psi (nth_error_In _ _ Hn)).
  destruct (restride_row sgn ls_fr a_fr wj wn m _ n psi Hn O2 (O4 _ E1)) as (k & K1 & K2 & K3 & K4 & K5).
  pose proof (row_stride_pos a_fr ls_fr (map (fr_of sgn) (t_psis_fr s)) n m Hm) as Kp.
  set (q' := restride ls_fr a_fr (slot sgn wj wn (Z.of_nat m) (n, psi))) in *.
  assert (R : q_n_fr q' = n /\ q_j_fr q' = f_j psi /\ q_spin q' = sgn (f_xi psi) /\ q_j q' = wj).
  { subst q'. unfold restride. destruct a_fr; try (destruct (_ =? 0)); repeat split. }
  destruct R as (R1 & R2 & R3 & R4).
  assert (D : exists n1s, q_n q = n1s ++ wn ++ [n] /\ List.length n1s = (if String.eqb (t_format s) "time" then 1 else 0)%nat /\
     q_n_fr q = n /\ q_j_fr q = f_j psi /\ q_spin q = sgn (f_xi psi) /\ q_j q = wj /\ q_n1_max q = Z.of_nat m /\ q_n1_stride q = PInt k).
  { destruct E4 as [E4|[E4|[]]]; rewrite <- E4 in *; unfold fmt in Hq; fold q' in Hq; cbn [String.eqb Ascii.eqb Bool.eqb] in *.
    - destruct (range_step _ _) as [r|]; [|destruct Hq]. apply in_map_iff in Hq as (n1 & Hq & _).
      exists [Z.to_nat n1]. rewrite <- K5. 
      change (q_n q) with (q_n (erase q)). change (q_n_fr q) with (q_n_fr (erase q)). change (q_j_fr q) with (q_j_fr (erase q)).
      change (q_spin q) with (q_spin (erase q)). change (q_j q) with (q_j (erase q)). change (q_n1_max q) with (q_n1_max (erase q)).
      change (q_n1_stride q) with (q_n1_stride (erase q)). rewrite <- Hq. cbn [label set_n set_order q_n q_n_fr q_j_fr q_spin q_j q_n1_max q_n1_stride].
      repeat split; assumption.
    - destruct Hq as [Hq|[]]. exists []. 
      change (q_n q) with (q_n (erase q)). change (q_n_fr q) with (q_n_fr (erase q)). change (q_j_fr q) with (q_j_fr (erase q)).
      change (q_spin q) with (q_spin (erase q)). change (q_j q) with (q_j (erase q)). change (q_n1_max q) with (q_n1_max (erase q)).
      change (q_n1_stride q) with (q_n1_stride (erase q)). rewrite <- Hq. cbn [set_order q_n q_n_fr q_j_fr q_spin q_j q_n1_max q_n1_stride].
      repeat split; assumption. }
  destruct D as (n1s & D1 & D2 & D3 & D4 & D5 & D6 & D7 & D8). repeat (split; [try assumption|]).
  - rewrite D1, app_assoc, last_last. reflexivity.
  - rewrite D1, !app_length, D2, Hl, D6. cbn [List.length]. destruct (Nat.eqb _ _), (String.eqb _ _); reflexivity.
  - lia.
  - exists k. split; [assumption|lia].
Qed.

(** The dry run yields the labels of the paths of the real run. *)
Lemma dry_paths (s : jtfs W P) x p0 S : jpaths be sgn s x = Ok (p0, S) ->
  exists ls a ls_fr a_fr U_gen p0', s_log2_stride (t_base s) = Ok ls /\ s_average (t_base s) = Ok a /\
    t_log2_stride_fr s = Ok ls_fr /\ t_average_fr s = Ok a_fr /\
    joint_scattering (dry_backend W) sgn tt (s_phi (t_base s)) (s_psi1 (t_base s)) (s_psi2 (t_base s)) ls (is_local_avg a)
             (t_phi_fr s) (t_psis_fr s) ls_fr (is_local_avg a_fr) = Ok U_gen /\
    average_and_format (dry_backend W) true (s_phi (t_base s)) ls a (t_phi_fr s) ls_fr a_fr
                 (s_out_type (t_base s)) (t_format s) U_gen = Ok (p0', map erase S) /\ p_n p0' = [].
Proof.
  unfold jpaths. intros H. inv_bind H. inv_bind H. inv_bind H. destruct v1 as [batch n]. inv_bind H. inv_bind H. inv_bind H.
  inv_bind H. inv_bind H. inv_bind H. inv_bind H. destruct v7 as [q0 qs]. inv_bind H. destruct v7 as [q0' qs'].
  inv_bind H. inv_bind H. injection H as <- <-.
  pose proof E8 as E8'. apply joint_dry in E8. apply joint_erase in E8' as (J1 & J2 & J3).
  assert (Hm : Forall (fun p => 0 <= q_n1_max p) qs).
  { apply Forall_forall. intros p Hp. apply (in_map erase) in Hp. rewrite J3 in Hp. change (q_n1_max p) with (q_n1_max (erase p)).
    revert Hp. generalize (erase p). clear. intros p Hp. unfold slots in Hp. apply in_app_iff in Hp as [Hp|Hp].
    - apply in_map_iff in Hp as ([n psi] & <- & _). cbn [slot q_n1_max]. lia.
    - apply in_flat_map in Hp as ([n2 f2] & _ & Hp). cbn [fst snd] in Hp. destruct (Nat.ltb _ _); [|destruct Hp].
      apply in_map_iff in Hp as ([n psi] & <- & _). cbn [slot q_n1_max]. lia. }
  pose proof E9 as E9'. apply average_and_format_erase in E9' as (A1 & _). apply average_and_format_dry in E9; [|exact Hm].
  assert (ES : map erase v8 = map erase qs').
  { apply mapM_ok in E11. eapply Forall2_map_eq; [|exact E11]. intros a b _ Hab. now apply jfinish_erase in Hab. }
  exists v3, v4, v5, v6. eexists _, _. repeat (split; [eassumption|]). split; [rewrite ES; exact E9|]. cbn [p_n]. congruence.
Qed.

Definition meta_row_of (s : jtfs W P) {B} (get : filter W P -> B) (r : list mcell) : list (option B) :=
  map (fun c : mcell * list (filter W P) => meta_lookup get (snd c) (fst c)) (combine r [s_psi1 (t_base s); s_psi2 (t_base s)]).
Lemma meta_run (s : jtfs W P) x p0 S : jtfs_ok sgn s -> jpaths be sgn s x = Ok (p0, S) ->
  let ps := isort (fun p q => key_leb (q_n p) (q_n q)) (map erase S) in
  let skip := String.eqb (t_format s) "joint" && String.eqb (s_out_type (t_base s)) "array" in
  exists m cells, jtfs_meta sgn s = Ok m /\ mapM (meta_cells (t_format s)) ps = Ok cells /\
    jm_key m = [] :: map q_n ps /\
    jm_n m = (if skip then [] else [[CNan; CNan]]) ++ cells /\
    jm_n_fr m = (if skip then [] else [None]) ++ map (fun p => Some (q_n_fr p)) ps /\
    jm_order m = (if skip then [] else [0%nat]) ++ map (fun p => (List.length (q_n p) - (if String.eqb (t_format s) "time" then 1 else 0))%nat) ps /\
    jm_spin m = (if skip then [] else [None]) ++ map (fun p => Some (q_spin p)) ps /\
    jm_j_fr m = (if skip then [] else [None]) ++ map (fun p => Some (q_j_fr p)) ps /\
    jm_xi m = map (meta_row_of s f_xi) (jm_n m) /\ jm_sigma m = map (meta_row_of s f_sigma) (jm_n m) /\ jm_j m = map (meta_row_of s f_j) (jm_n m).
Proof.
  intros Hok H ps skip. destruct (dry_paths s x p0 S H) as (ls & a & ls_fr & a_fr & U & p0' & E1 & E2 & E3 & E4 & E5 & E6 & E7).
  assert (HS : forall p, In p ps -> exists q, In q S /\ p = erase q).
  { intros p Hp. subst ps. apply (Permutation_in _ (isort_perm _ _)) in Hp. apply in_map_iff in Hp as (q & <- & Hq). eauto. }
  assert (HC : exists cells, mapM (meta_cells (t_format s)) ps = Ok cells).
  { apply mapM_total. intros p Hp. destruct (HS p Hp) as (q & Hq & ->).
    destruct (jpaths_slots s x p0 S q Hok H Hq) as (n & psi & Hn & _ & _ & _ & _ & _ & Hmax & k & Hk & Hk0).
    unfold meta_cells. cbn [erase set_coef q_n q_n1_max q_n1_stride]. rewrite Hk.
    assert (R : exists r, range_step (q_n1_max q) (PInt k) = Ok r).
    { cbn [range_step]. destruct (Z.eqb_spec k 0); [lia|]. destruct (k <? 0); eauto. }
    destruct R as (r & Hr).     destruct (q_n q) as [|x1 [|x2 [|x3 [|]]]]; destruct (String.eqb (t_format s) "joint"), (String.eqb (t_format s) "time"); rewrite ?Hr; cbn [bind]; eauto. }
  destruct HC as (cells & HC). unfold jtfs_meta. rewrite E1. cbn [bind]. rewrite E2. cbn [bind]. rewrite E3. cbn [bind]. rewrite E4. cbn [bind].
  rewrite E5. cbn [bind]. rewrite E6. cbn [bind]. fold ps. rewrite HC. cbn [bind]. eexists _, cells. split; [reflexivity|]. split; [reflexivity|].
  cbn [jm_key jm_n jm_n_fr jm_order jm_spin jm_j_fr jm_xi jm_sigma jm_j]. rewrite E7. fold skip.
  repeat split.
  - rewrite !map_app, !map_map. f_equal; [destruct skip; reflexivity|]. apply map_ext_in. intros p Hp. destruct (HS p Hp) as (q & Hq & ->).
    destruct (jpaths_slots s x p0 S q Hok H Hq) as (n & psi & Hn & A1 & A2 & A3 & _). cbn [meta_lookup_fr erase set_coef q_n_fr q_spin]. rewrite A1, Hn.
    cbn [option_map]. now rewrite A3.
  - rewrite !map_app, !map_map. f_equal; [destruct skip; reflexivity|]. apply map_ext_in. intros p Hp. destruct (HS p Hp) as (q & Hq & ->).
    destruct (jpaths_slots s x p0 S q Hok H Hq) as (n & psi & Hn & A1 & A2 & A3 & _). cbn [meta_lookup_fr erase set_coef q_n_fr q_j_fr]. rewrite A1, Hn.
    cbn [option_map]. now rewrite A2.
Qed.

(** In the joint format the sort changes nothing. *)
Lemma joint_sorted (s : jtfs W P) x p0 S : jtfs_ok sgn s -> jpaths be sgn s x = Ok (p0, S) -> t_format s = "joint"%string ->
  isort (fun p q => key_leb (q_n p) (q_n q)) (map erase S) = map erase S.
Proof.
  intros Hok H Hf. destruct (jpaths_keys s x p0 S Hok H) as (ls_fr & a_fr & _ & _ & _ & Hp0 & Hk).
  unfold jkeys in Hk. rewrite Hf in Hk. cbn [String.eqb Ascii.eqb Bool.eqb] in Hk. apply isort_id.
  apply (StronglySorted_unmap (fun a b => key_leb a b = true) q_n). rewrite map_map. change (map (fun x => q_n (erase x)) S) with (map q_n S).
  pose proof (joint_keys_sorted (map f_j (s_psi1 (t_base s))) (map f_j (s_psi2 (t_base s))) (map (fr_of sgn) (t_psis_fr s))) as Hs.
  rewrite <- Hk in Hs. inversion Hs; subst. now apply klt_le_sorted.
Qed.
End Meta.
