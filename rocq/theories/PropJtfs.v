(** Properties C35-C39 and C61-C63: paths, labels and metadata of joint time-frequency scattering. *)
From Coq Require Import String Reals ZArith QArith Qpower Qround Qminmax List Bool Lia Lqa Permutation Sorted.
From Verif Require Import Base BaseProofs NdArray NdProofs Backend Core1d Utils1d Utils1dProofs Frontend1d Core1dProofs Frontend1dProofs Rows1d
  Factory1d FactoryProofs ComplexOps FilterBank1d FilterBank1dProofs Construct1d
  Jtfs JtfsFront JtfsProofs SpecJtfs JtfsKeys JtfsDry JtfsMeta JtfsConstruct JtfsTotal Example1d ExampleJtfs.
Import ListNotations.
Local Open Scope Z_scope.
Local Open Scope res_scope.

Lemma Q_of_ge1 v q0 q1 : Q_of v = Ok [QI q0; q1] -> 1 <= q0.
Proof.
  intros EQ. unfold Q_of in EQ. destruct (existsb _ _) eqn:Ex; [discriminate|].
  assert (G : Qltb (inject_Z q0) 1 = false -> 1 <= q0).
  { unfold Qltb. intros E. apply negb_false_iff, Qle_bool_iff in E. unfold Qle, inject_Z in E. cbn in E. lia. }
  apply G. destruct v as [z|?|[|a [|b [|]]]|?]; try discriminate; injection EQ as EQ1 EQ2; subst; cbn in Ex; apply orb_false_iff in Ex; tauto.
Qed.
(** Number of first-order wavelets of a constructed object. *)
Lemma constructed_psi1 support p out t q0 q1 : 0 <= p_J (jp_base p) -> TimeFrequencyScattering support p out = Ok t ->
  Q_of (p_Q (jp_base p)) = Ok [QI q0; q1] ->
  map params_of (s_psi1 (t_base t)) = anden_list (p_J (jp_base p)) q0 sigma0 r_psi /\
  Forall (fun f => f_j f = scale (f_xi f) (f_sigma f)) (s_psi1 (t_base t)) /\
  1 <= Z.of_nat (List.length (s_psi1 (t_base t))) <= (p_J (jp_base p) + 1) * q0.
Proof.
  intros HJ H EQ0. apply new_jtfs_inv in H. destruct H as (pb & Q_fr & q0' & q1' & F & Epb & EB & _ & EQ & _).
  pose proof EB as EB'. apply new_inv in EB'. destruct EB' as (b & Qs & T & l2T & phi & psi1s & psi2s & _ & EQ' & _ & _ & EF & _).
  rewrite EQ in EQ'. injection EQ' as <-.
  assert (exists q2, q1' = QI q2) as (q2 & ->).
  { unfold filter_factory in EF. inv_bind EF. cbn [make_layers] in E. inv_bind E. destruct q1'; [eauto|discriminate]. }
  destruct (new_banks support pb out _ EB q0' q2 EQ) as (B1 & _ & B3 & _).
  assert (Eq : p_Q pb = p_Q (jp_base p)) by (subst pb; reflexivity). assert (EJ : p_J pb = p_J (jp_base p)) by (subst pb; reflexivity).
  rewrite Eq, EQ0 in EQ. injection EQ as <- ->. rewrite EJ in B1. split; [exact B1|]. split; [exact B3|].
  pose proof (Q_of_ge1 _ _ _ EQ0) as Hq. pose proof (anden_list_ok _ _ HJ Hq) as Ha. rewrite <- B1 in Ha.
  apply anden_length in Ha; [|exact HJ|exact Hq]. now rewrite map_length in Ha.
Qed.

(** Constructed objects meet the requirements [jtfs_ok] of the theorems below. *)
Theorem constructed_jtfs_ok : forall support p out t,
  0 <= p_J (jp_base p) -> 0 <= jp_J_fr p -> TimeFrequencyScattering support p out = Ok t -> jtfs_ok sgnR t.
Proof.
  intros support p out t HJ HJf H. destruct (new_jtfs_spun support p out t HJf H) as [Hs Hj].
  pose proof H as H'. apply new_jtfs_inv in H'.
  destruct H' as (pb & Q_fr & q0 & q1 & F & Epb & EB & _ & EQ & ET & _ & Els & _ & _ & _ & _).
  split.
  - exact Hs.
  - eapply Forall_impl; [|exact Hj]. cbn beta. intros; lia.
  - intros E0. assert (EQ' : Q_of (p_Q (jp_base p)) = Ok [QI q0; q1]) by (subst pb; exact EQ).
    destruct (constructed_psi1 support p out t q0 q1 HJ H EQ') as (_ & _ & B). rewrite E0 in B. cbn in B. lia.
  - intros ls E. rewrite Els in E. destruct (jp_stride_fr p) as [|z|b|]; try discriminate; cbn [log2_stride_of] in E.
    + unfold log2_T_of in E. rewrite ET in E. cbn [bind] in E. injection E as <-. apply log2_floor_spec.
      unfold T_of in ET. inv_bind ET. destruct v as [T a]. injection ET as <-. eapply parse_T_ge1; eassumption.
    + destruct (z <=? 0); [discriminate|]. destruct (negb _); [discriminate|]. inv_bind E. destruct v; try discriminate.
      injection E as <-. apply Z.log2_nonneg.
Qed.

(** ** C35 *)
Lemma stack_dim2 {K} a b n (d : dtype) (Rs : list (list (list K))) : Rs <> [] ->
  stack (map (of_rows d [a; b] n) Rs) 2 = stack (map (of_rows d [a; b] n) Rs) (-2).
Proof. destruct Rs as [|R Rs]; [congruence|]. reflexivity. Qed.

Lemma width1_order1 X W P (be : backend X W) (phi : filter W P) U0h ls n f u :
  width1 be phi U0h ls true f = Ok u -> order1 be phi None U0h ls true (n, f) = Ok [mk_path (snd u) [f_j f] [n]].
Proof.
  unfold width1, order1. intros H. inv_bind H. rewrite E. cbn [bind orb]. inv_bind H. rewrite E0. cbn [bind].
  replace (Z.max (ls - Z.min (f_j f) ls) 0) with (ls - Z.min (f_j f) ls) by lia.
  inv_bind H. rewrite E1. cbn [bind]. inv_bind H. rewrite E2. cbn [bind]. inv_bind H. rewrite E3. cbn [bind].
  inv_bind H. rewrite E4. cbn [bind concat]. injection H as <-. reflexivity.
Qed.

(** The first-order stack of the width-first time scattering holds the first-order coefficients of
    scattering1d, in order, for every backend; the zeroth orders agree as well. *)
Theorem C35_widthfirst_depthfirst : forall X W P (be : backend X W) U (phi : filter W P) psi1 psi2 ls p0 S1 Ys,
  widthfirst be U phi psi1 psi2 ls true = Ok (p0, S1, Ys) ->
  exists l, scattering1d be U phi [psi1] ls true = Ok (p0 :: l) /\
    map p_n l = map (fun n => [n]) (seq 0 (List.length psi1)) /\
    be_stack be (map p_coef l) 2 = Ok (w_coef S1) /\ w_n1_max S1 = Z.of_nat (List.length psi1) /\
    forall ps, scattering1d be U phi [psi1; psi2] ls true = Ok ps ->
      List.filter (fun p => Nat.leb (List.length (p_n p)) 1) ps = p0 :: l.
Proof.
  intros X W P be U phi psi1 psi2 ls p0 S1 Ys H.
  apply widthfirst_inv in H as (U0h & l1 & ll & E1 & E2 & E3 & E4 & E5 & _).
  assert (G : forall i l1, mapM (width1 be phi U0h ls true) psi1 = Ok l1 ->
    exists l, mapM (order1 be phi None U0h ls true) (enum_from i psi1) = Ok (map (fun p => [p]) l) /\
      map p_n l = map (fun n => [n]) (seq i (List.length psi1)) /\ map p_coef l = map snd l1).
  { clear. induction psi1 as [|f psi1 IH]; intros i l1 H; cbn [mapM] in H.
    - injection H as <-. exists []. repeat split.
    - inv_bind H. inv_bind H. injection H as <-. destruct (IH (S i) _ E0) as (l & L1 & L2 & L3).
      apply (width1_order1 X W P be phi U0h ls i) in E.
      exists (mk_path (snd v) [f_j f] [i] :: l). cbn [enum_from mapM map]. rewrite E. cbn [bind]. rewrite L1. cbn [bind].
      split; [reflexivity|]. cbn [List.length seq map p_n p_coef]. now rewrite L2, L3. }
  destruct (G 0%nat l1 E3) as (l & L1 & L2 & L3). exists l.
  assert (Es : scattering1d be U phi [psi1] ls true = Ok (p0 :: l)).
  { unfold scattering1d. rewrite E1. cbn [bind]. rewrite E2. cbn [bind]. rewrite py_index_0. cbn [bind nth_error].
    unfold enumerate. rewrite L1. cbn [bind]. do 2 f_equal. clear. induction l; cbn [map concat app]; congruence. }
  split; [exact Es|]. split; [exact L2|]. rewrite L3. split; [exact E4|]. split; [rewrite E5; reflexivity|].
  intros ps Hps. apply scattering1d_order1_ok in Hps. congruence.
Qed.
Print Assumptions C35_widthfirst_depthfirst.

(** The NumPy stack, row by row: row (b, n1) of the stack is row b of the n1-th first-order coefficient. *)
Theorem C35_rows : forall K P (o : ops K), ops_ok o -> forall (phi : filter (nd K) P) psi1 psi2 N ls B rows p0 S1 Ys,
  psi1 <> [] -> rows_ok [B; 1%nat] N rows -> adm phi psi1 psi2 false N ls true ->
  widthfirst (numpy_backend o) (of_rows Real [B; 1%nat] N rows) phi psi1 psi2 ls true = Ok (p0, S1, Ys) ->
  let m := List.length psi1 in
  exists l n, scattering1d (numpy_backend o) (of_rows Real [B; 1%nat] N rows) phi [psi1] ls true = Ok (p0 :: l) /\
    nd_shape (w_coef S1) = [B; 1; m; n]%nat /\
    forall b n1 p, (b < B)%nat -> nth_error l n1 = Some p -> p_n p = [n1] /\ nd_shape (p_coef p) = [B; 1; n]%nat /\
      firstn n (skipn ((b * m + n1) * n) (nd_data (w_coef S1))) = firstn n (skipn (b * n) (nd_data (p_coef p))).
Proof.
  intros K P o Ho phi psi1 psi2 N ls B rows p0 S1 Ys Hne Hr Ha H m.
  destruct (C35_widthfirst_depthfirst _ _ _ _ _ _ _ _ _ _ _ _ H) as (l & L1 & L2 & L3 & _).
  destruct (scattering1d_rows o Ho phi psi1 psi2 false N ls true [B; 1%nat] rows Hr Ha) as (gen & G1 & G2).
  rewrite L1 in G1. injection G1 as <-. inversion G2 as [|? ? _ G]; subst; clear G2.
  set (n := (N / p2 ls)%nat). exists l, n. split; [exact L1|].
  assert (Hlen : List.length l = m) by (rewrite <- (map_length p_n), L2, map_length, seq_length; reflexivity).
  assert (Hg : forall k p, nth_error l k = Some p -> p_n p = [k] /\ exists R, p_coef p = of_rows Real [B; 1%nat] n R /\ rows_ok [B; 1%nat] n R).
  { intros k p Hp. assert (Hk : (k < m)%nat) by (rewrite <- Hlen; apply nth_error_Some; congruence).
    assert (Hn : p_n p = [k]).
    { apply (map_nth_error p_n) in Hp. rewrite L2, nth_error_map in Hp. fold m in Hp. rewrite (nth_error_nth' _ 0%nat) in Hp by (now rewrite seq_length).
      cbn [option_map] in Hp. rewrite seq_nth in Hp by assumption. cbn [plus] in Hp. congruence. }
    split; [exact Hn|]. rewrite Forall_forall in G. apply nth_error_In in Hp. specialize (G p Hp). unfold good in G. rewrite Hn in G.
    cbn [resolution] in G. eexists. exact G. }
  assert (exists Rs, map p_coef l = map (of_rows Real [B; 1%nat] n) Rs /\ Forall (rows_ok [B; 1%nat] n) Rs) as (Rs & HRs & HF).
  { assert (Hg' : Forall (fun p => exists R, p_coef p = of_rows Real [B; 1%nat] n R /\ rows_ok [B; 1%nat] n R) l).
    { apply Forall_forall. intros p Hp. apply In_nth_error in Hp as (k & Hp). apply (Hg k p Hp). }
    clear -Hg'. induction Hg' as [|p l (R & R1 & R2) _ (Rs & I1 & I2)]; [exists []; now split|].
    exists (R :: Rs). cbn [map]. rewrite R1, I1. split; [reflexivity|now constructor]. }
  assert (HlR : List.length Rs = m) by (rewrite <- (map_length (of_rows Real [B; 1%nat] n)), <- HRs, map_length; exact Hlen).
  assert (HneR : Rs <> []) by (intros ->; destruct psi1; [congruence|discriminate]).
  cbn [numpy_backend be_stack] in L3. rewrite HRs, stack_dim2, stack_of in L3 by assumption. injection L3 as L3. rewrite <- L3.
  cbn [of_rows nd_shape nd_data]. rewrite HlR. split; [reflexivity|]. intros b n1 p Hb Hp.
  destruct (Hg n1 p Hp) as (K1 & _). split; [exact K1|].
  assert (Hk : (n1 < m)%nat) by (rewrite <- Hlen; apply nth_error_Some; congruence).
  assert (exists R, nth_error Rs n1 = Some R /\ p_coef p = of_rows Real [B; 1%nat] n R) as (R & E & K2).
  { apply (map_nth_error p_coef) in Hp. rewrite HRs, nth_error_map in Hp. destruct (nth_error Rs n1) as [R'|] eqn:E; [|discriminate].
    cbn [option_map] in Hp. exists R'. split; congruence. }
  assert (K3 : rows_ok [B; 1%nat] n R) by (rewrite Forall_forall in HF; apply HF; eapply nth_error_In; eassumption).
  rewrite K2. split; [reflexivity|]. cbn [of_rows nd_data].
  rewrite !firstn_skipn_concat; [|apply K3|].
  2:{ pose proof (interleave_ok (NdArray.prod [B; 1%nat]) n [B; 1%nat] Rs eq_refl HF) as [_ Hi]. exact Hi. }
  rewrite <- HlR. rewrite interleave_nth; [|unfold NdArray.prod; cbn; lia|lia].
  rewrite (nth_error_nth _ _ _ E). reflexivity.
Qed.
Print Assumptions C35_rows.
Example C35_instance : exists p0 S1 Ys, adm (s_phi (ex_scat "list" 2 TNone SNone)) (s_psi1 (ex_scat "list" 2 TNone SNone))
    (s_psi2 (ex_scat "list" 2 TNone SNone)) false 16 3 true /\
  widthfirst ux (mk_nd Real [2; 1; 16]%nat (repeat tt 32)) (s_phi (ex_scat "list" 2 TNone SNone)) (s_psi1 (ex_scat "list" 2 TNone SNone))
    (s_psi2 (ex_scat "list" 2 TNone SNone)) 3 true = Ok (p0, S1, Ys) /\
  nd_shape (w_coef S1) = [2; 1; 3; 2]%nat /\ map w_n1_max Ys = [2; 3].
Proof.
  eexists _, _, _. split; [|vm_compute; repeat split; reflexivity]. split; try discriminate; try lia.
  - intros _. split; [exists 2%nat; reflexivity|]. eexists. repeat split. discriminate.
  - intros f1 [<-|[<-|[<-|[]]]]; (split; [cbn; lia|split; [eexists; repeat split; discriminate|split; [discriminate|intros _; eexists; repeat split; discriminate]]]).
Qed.

(** ** C36 *)
Definition jwith_out {W P} (s : jtfs W P) (out : string) : jtfs W P :=
  {| t_base := with_out (t_base s) out; t_phi_fr := t_phi_fr s; t_psis_fr := t_psis_fr s;
     t_log2_stride_fr := t_log2_stride_fr s; t_average_fr := t_average_fr s; t_format := t_format s |}.

Lemma jdict_fold {X} (S : list (jpath X)) d : NoDup (map fst d ++ map q_n S) ->
  fold_left (fun d p => dict_set (q_n p) (q_coef p) d) S d = d ++ map (fun p => (q_n p, q_coef p)) S.
Proof.
  revert d. induction S as [|p S IH]; intros d H; cbn [fold_left map]; [now rewrite app_nil_r|].
  cbn [map] in H. apply NoDup_remove in H as H'. destruct H' as [H1 H2].
  rewrite dict_set_fresh by (intros K; apply H2; apply in_or_app; left; exact K).
  rewrite IH.
  - rewrite <- app_assoc. reflexivity.
  - rewrite map_app. cbn [map fst]. rewrite <- app_assoc. exact H.
Qed.

(** Two output types give the same paths unless exactly one is 'array' with the joint format. *)
Lemma jpaths_out X W P (be : backend X W) sgn (s : jtfs W P) x o1 o2 r :
  In o2 ["array"; "dict"; "list"]%string ->
  (o2 = "array"%string -> t_format s = "time"%string /\ s_average (t_base s) <> Ok NoAvg) ->
  (o1 = "array"%string -> t_format s = "time"%string) ->
  jpaths be sgn (jwith_out s o1) x = Ok r -> jpaths be sgn (jwith_out s o2) x = Ok r.
Proof.
  intros Ho2 H2 H1 H. unfold jpaths in *. cbn zeta in *. inv_bind H.
  change (s_log2_stride (t_base (jwith_out s o2))) with (s_log2_stride (t_base (jwith_out s o1))).
  assert (Ec : jcheck_runtime_args (jwith_out s o2) = Ok tt).
  { unfold jcheck_runtime_args, check_runtime_args in *. cbn [t_base jwith_out with_out s_out_type s_average t_format t_average_fr] in E |- *.
    assert (Ex : existsb (String.eqb o2) ["array"; "dict"; "list"]%string = true).
    { apply existsb_exists. exists o2. split; [assumption|apply String.eqb_refl]. }
    rewrite Ex. inv_bind E. destruct (existsb _ _) in E0; [|discriminate]. inv_bind E0. rewrite E1. cbn [bind].
    destruct (String.eqb_spec o2 "array") as [Ea|Ea].
    - destruct (H2 Ea) as [Hf Ha]. rewrite Hf in *. cbn [String.eqb Ascii.eqb Bool.eqb] in *.
      destruct v1; cbn [andb raise_if bind negb orb]; congruence || reflexivity.
    - rewrite !andb_false_r. cbn [raise_if bind]. inv_bind E. destruct v, v2.
      destruct (String.eqb (t_format s) "joint"); [inv_bind E2; rewrite E3; cbn [bind]; rewrite andb_false_r; cbn [bind raise_if] |cbn [bind]]; exact E. }
  rewrite Ec. cbn [bind].
  inv_bind H. rewrite E0. cbn [bind]. inv_bind H. rewrite E1. cbn [bind]. destruct v1 as [batch n].
  inv_bind H. rewrite E2. cbn [bind]. inv_bind H. rewrite (E3 : be_pad be v1 (s_pad_left (t_base (jwith_out s o2))) (s_pad_right (t_base (jwith_out s o2))) = _).
  cbn [bind]. inv_bind H. rewrite E4. cbn [bind]. inv_bind H.
  rewrite (E5 : s_average (t_base (jwith_out s o2)) = _). cbn [bind]. inv_bind H.
  rewrite (E6 : t_log2_stride_fr (jwith_out s o2) = _). cbn [bind]. inv_bind H.
  rewrite (E7 : t_average_fr (jwith_out s o2) = _). cbn [bind]. inv_bind H.
  rewrite (E8 : joint_scattering be sgn v2 (s_phi (t_base (jwith_out s o2))) (s_psi1 (t_base (jwith_out s o2))) (s_psi2 (t_base (jwith_out s o2))) v3
     (is_local_avg v4) (t_phi_fr (jwith_out s o2)) (t_psis_fr (jwith_out s o2)) v5 (is_local_avg v6) = _). cbn [bind].
  inv_bind H. destruct v8 as [p0 ps].
  assert (E10 : average_and_format be false (s_phi (t_base (jwith_out s o2))) v3 v4 (t_phi_fr (jwith_out s o2)) v5 v6
    (s_out_type (t_base (jwith_out s o2))) (t_format (jwith_out s o2)) v7 = Ok (p0, ps)).
  { rewrite <- E9. unfold average_and_format. cbn [t_base jwith_out with_out s_out_type t_format s_phi t_phi_fr].
    assert (EB : String.eqb o2 "array" && String.eqb (t_format s) "joint" = String.eqb o1 "array" && String.eqb (t_format s) "joint").
    { destruct (String.eqb_spec o2 "array") as [Ea|Ea]; [rewrite (proj1 (H2 Ea)); cbn; symmetry; apply andb_false_r|].
      destruct (String.eqb_spec o1 "array") as [Eb|Eb]; [rewrite (H1 Eb); reflexivity|reflexivity]. }
    destruct v7 as [q0 qs].
    assert (EF : mapM (format_path be false (s_phi (t_base s)) v3 v4 (t_phi_fr s) v5 v6 o2 (t_format s)) qs =
                 mapM (format_path be false (s_phi (t_base s)) v3 v4 (t_phi_fr s) v5 v6 o1 (t_format s)) qs).
    { apply mapM_ext. intros q _. unfold format_path. now rewrite EB. }
    rewrite EF. reflexivity. }
  rewrite E10. cbn [bind]. exact H.
Qed.

(** The keys of the paths.  [joint_keys], [time_keys]: SpecJtfs.v; [fr_of] is the pair of log-scale and sign of
    the centre frequency of a frequential filter.  [jtfs_ok] holds of every constructed object
    ([constructed_jtfs_ok]). *)
Theorem C36_path_keys : forall X W P (be : backend X W) sgn (s : jtfs W P) x p0 S,
  jtfs_ok sgn s -> jtfs_scattering be sgn s x = Ok (JList p0 S) ->
  let j1s := map f_j (s_psi1 (t_base s)) in let j2s := map f_j (s_psi2 (t_base s)) in
  let frs := map (fr_of sgn) (t_psis_fr s) in
  exists ls_fr a_fr, t_log2_stride_fr s = Ok ls_fr /\ t_average_fr s = Ok a_fr /\
    ((t_format s = "joint"%string /\ p_n p0 :: map q_n S = joint_keys j1s j2s frs) \/
     (t_format s = "time"%string /\ p_n p0 :: map q_n S = time_keys j1s j2s frs a_fr ls_fr)) /\
    NoDup (p_n p0 :: map q_n S).
Proof.
  intros X W P be sgn s x p0 S Hok H j1s j2s frs. unfold jtfs_scattering in H. inv_bind H. destruct v as [q0 S0].
  assert (q0 = p0 /\ S0 = S) as [-> ->].
  { unfold jcontainer in H. destruct (String.eqb _ "array"); [destruct (String.eqb _ "joint"); inv_bind H; discriminate|].
    destruct (String.eqb _ "dict"); [discriminate|]. injection H; auto. }
  destruct (jpaths_keys be sgn s x p0 S Hok E) as (ls_fr & a_fr & E1 & E2 & E3 & _ & E5).
  exists ls_fr, a_fr. split; [assumption|]. split; [assumption|]. rewrite E5. split; [|apply jkeys_NoDup].
  unfold jkeys. destruct E3 as [<-|[<-|[]]]; cbn [String.eqb Ascii.eqb Bool.eqb]; auto.
Qed.
Print Assumptions C36_path_keys.

(** The dictionary holds exactly the listed paths; the array of format='time' stacks them in order. *)
Theorem C36_output_types : forall X W P (be : backend X W) sgn (s : jtfs W P) x p0 S,
  jtfs_ok sgn s -> jtfs_scattering be sgn (jwith_out s "list") x = Ok (JList p0 S) ->
  jtfs_scattering be sgn (jwith_out s "dict") x =
    Ok (JDict ((p_n p0, p_coef p0) :: map (fun q => (q_n q, q_coef q)) S)) /\
  (t_format s = "time"%string -> s_average (t_base s) <> Ok NoAvg ->
   jtfs_scattering be sgn (jwith_out s "array") x =
     match be_stack be (p_coef p0 :: map q_coef S) (-2) with Ok y => Ok (JArray y) | Err e => Err e end).
Proof.
  intros X W P be sgn s x p0 S Hok H. unfold jtfs_scattering in *. inv_bind H. destruct v as [q0 S0].
  unfold jcontainer in H. cbn [t_base jwith_out with_out s_out_type String.eqb Ascii.eqb Bool.eqb] in H. injection H as -> ->.
  assert (Hok' : jtfs_ok sgn (jwith_out s "list")) by (destruct Hok; split; assumption).
  destruct (jpaths_keys be sgn _ x p0 S Hok' E) as (ls_fr & a_fr & _ & _ & _ & _ & Hk). split.
  - rewrite (jpaths_out _ _ _ be sgn s x "list" "dict" (p0, S)); [|cbn; auto|discriminate|discriminate|exact E]. cbn [bind].
    unfold jcontainer. cbn [t_base jwith_out with_out s_out_type String.eqb Ascii.eqb Bool.eqb]. rewrite jdict_fold; [reflexivity|].
    cbn [dict_set map fst app]. rewrite Hk. apply jkeys_NoDup.
  - intros Hf Ha. rewrite (jpaths_out _ _ _ be sgn s x "list" "array" (p0, S)); [|cbn; auto|auto|discriminate|exact E]. cbn [bind].
    unfold jcontainer. cbn [t_base jwith_out with_out s_out_type t_format String.eqb Ascii.eqb Bool.eqb]. rewrite Hf.
    cbn [String.eqb Ascii.eqb Bool.eqb]. destruct (be_stack _ _ _); reflexivity.
Qed.
Print Assumptions C36_output_types.
Lemma ex_jtfs_ok out format F stride_fr : F = TNone -> stride_fr = SNone -> jtfs_ok Z.sgn (ex_jtfs out format F stride_fr).
Proof.
  intros -> ->. split.
  - exists (ffr 0 1 [8]%nat), [ffr 3 0 [8]%nat; ffr 1 1 [8]%nat], [ffr (-3) 0 [8]%nat; ffr (-1) 1 [8]%nat]. repeat constructor.
  - repeat constructor; cbn; lia.
  - discriminate.
  - intros ls E. vm_compute in E. injection E as <-. lia.
Qed.
Example C36_instance : exists p0 S p0' S' y,
  jtfs_scattering ux Z.sgn (ex_jtfs "list" "joint" TNone SNone) ex_input = Ok (JList p0 S) /\
  p_n p0 :: map q_n S = [[]; [0]; [1]; [2]; [1; 0]; [1; 1]; [1; 2]; [1; 3]; [1; 4]; [2; 0]; [2; 1]; [2; 2]; [2; 3]; [2; 4]]%nat /\
  jtfs_scattering ux Z.sgn (ex_jtfs "list" "time" TNone SNone) ex_input = Ok (JList p0' S') /\
  map q_n S' = [[0; 0]; [2; 0]; [0; 1]; [2; 1]; [0; 2]; [2; 2]; [0; 1; 0]; [0; 1; 1]; [0; 1; 2]; [0; 1; 3]; [0; 1; 4];
    [0; 2; 0]; [2; 2; 0]; [0; 2; 1]; [2; 2; 1]; [0; 2; 2]; [2; 2; 2]; [0; 2; 3]; [2; 2; 3]; [0; 2; 4]; [2; 2; 4]]%nat /\
  jtfs_scattering ux Z.sgn (ex_jtfs "array" "time" TNone SNone) ex_input = Ok (JArray y) /\ nd_shape y = [2; 5; 22; 1]%nat.
Proof. vm_compute. eexists _, _, _, _, _. repeat split; reflexivity. Qed.

(** ** C37 *)
(** The paths that frequency_scattering yields: the filter at position [n_fr] of the frequential filterbank is the
    one applied, also when only the non-negative spins are traversed. *)
Theorem C37_filter_applied : forall X W P (be : backend X W) sgn (phi : filter W P) psis ls_fr alf spinned wp l,
  spun sgn psis -> frequency_scattering be sgn phi psis ls_fr alf spinned wp = Ok l ->
  map q_n_fr l = List.filter (fun n => spinned || (0 <=? spin_at (map (fr_of sgn) psis) n)) (seq 0 (List.length psis)) /\
  exists X_T X_pad X_hat, be_swap be (w_coef wp) = Ok X_T /\ be_pad_frequency be X_T (f_N phi - w_n1_max wp) = Ok X_pad /\
    (if spinned then be_cfft be X_pad else be_rfft be X_pad) = Ok X_hat /\
    forall q, In q l -> exists psi w c1 c2 c3, nth_error psis (q_n_fr q) = Some psi /\ q_spin q = sgn (f_xi psi) /\
      q_j_fr q = f_j psi /\ q_n q = w_n wp ++ [q_n_fr q] /\ nth_error (f_levels psi) 0 = Some w /\ be_cdgmm be X_hat w = Ok c1 /\
      be_subsample be c1 (pow2 (if alf then Z.min (f_j psi) ls_fr else f_j psi)) = Ok c2 /\
      be_ifft be c2 = Ok c3 /\ be_swap be c3 = Ok (q_coef q).
Proof.
  intros X W P be sgn phi psis ls_fr alf spinned wp l Hs H. unfold frequency_scattering in H. inv_bind H. inv_bind H. inv_bind H.
  set (bank := if spinned then psis else _) in H.
  assert (Hb : enumerate bank = List.filter (fun np => spinned || (0 <=? sgn (f_xi (snd np)))) (enumerate psis)).
  { subst bank. destruct spinned; cbn [orb].
    - symmetry. clear. induction (enumerate psis) as [|a k IH]; cbn [List.filter]; congruence.
    - rewrite <- enumerate_nonneg by exact Hs. reflexivity. }
  assert (Hq : forall np q, freq1 be sgn wp v1 ls_fr alf np = Ok q -> q_n_fr q = fst np).
  { intros [n psi] q Hq. unfold freq1 in Hq. inv_binds Hq. injection Hq as <-. reflexivity. }
  apply mapM_ok in H. split.
  - transitivity (map fst (enumerate bank)).
    { clear -H Hq. induction H as [|np q a b Hab F IH]; [reflexivity|]. cbn [map]. rewrite (Hq _ _ Hab). congruence. }
    rewrite Hb. clear. unfold enumerate.
    assert (G : forall i pre, List.length pre = i ->
      map fst (List.filter (fun np : nat * filter W P => spinned || (0 <=? sgn (f_xi (snd np)))) (enum_from i psis)) =
      List.filter (fun n => spinned || (0 <=? spin_at (map (fr_of sgn) (pre ++ psis)) n)) (seq i (List.length psis))).
    { induction psis as [|f psis IH]; intros i pre Hp; [reflexivity|]. cbn [enum_from List.length seq List.filter snd].
      assert (En : spin_at (map (fr_of sgn) (pre ++ f :: psis)) i = sgn (f_xi f)).
      { unfold spin_at. rewrite map_app, app_nth2; rewrite map_length; [|lia]. rewrite Hp, Nat.sub_diag. reflexivity. }
      rewrite En. specialize (IH (S i) (pre ++ [f])). rewrite <- app_assoc in IH. cbn [app] in IH. rewrite app_length in IH. cbn in IH.
      destruct (spinned || _); cbn [map fst]; rewrite IH by lia; reflexivity. }
    apply (G 0%nat []). reflexivity.
  - exists v, v0, v1. repeat (split; [assumption|]). intros q Hin. destruct (Forall2_In_r _ _ _ _ H Hin) as ([n psi] & Hn & Hf).
    pose proof (Hq _ _ Hf) as Eq. cbn [fst] in Eq. rewrite Hb in Hn. apply filter_In in Hn as [Hn _]. apply In_enumerate in Hn.
    unfold freq1 in Hf. inv_binds Hf. injection Hf as <-. cbn [q_n_fr q_spin q_j_fr q_n q_coef].
    apply py_index_nonneg in E2; [|lia]. exists psi, v2, v3, v4, v5. repeat split; assumption.
Qed.
Print Assumptions C37_filter_applied.

(** On the paths that scattering() lists. *)
Theorem C37_n_fr_identifies : forall X W P (be : backend X W) sgn (s : jtfs W P) x p0 S q,
  jtfs_ok sgn s -> jtfs_scattering be sgn s x = Ok (JList p0 S) -> In q S ->
  exists psi, nth_error (t_psis_fr s) (q_n_fr q) = Some psi /\ q_spin q = sgn (f_xi psi) /\ q_j_fr q = f_j psi /\
    last (q_n q) 0%nat = q_n_fr q.
Proof.
  intros X W P be sgn s x p0 S q Hok H Hq. unfold jtfs_scattering in H. inv_bind H. destruct v as [q0 S0].
  assert (S0 = S) as ->.
  { unfold jcontainer in H. destruct (String.eqb _ "array"); [destruct (String.eqb _ "joint"); inv_bind H; discriminate|].
    destruct (String.eqb _ "dict"); [discriminate|]. injection H; auto. }
  destruct (jpaths_slots be sgn s x q0 S q Hok E Hq) as (n & psi & A1 & A2 & A3 & A4 & A5 & _). exists psi. rewrite A2. auto.
Qed.
Print Assumptions C37_n_fr_identifies.
(** Constructed objects: the frequential filterbank is one low-pass, wavelets of positive frequency and their mirror
    images, so that the theorem above applies ([constructed_jtfs_ok]). *)
Theorem C37_constructed_bank : forall support p out t, 0 <= p_J (jp_base p) -> 0 <= jp_J_fr p -> TimeFrequencyScattering support p out = Ok t ->
  jtfs_ok sgnR t /\ exists low pos neg, t_psis_fr t = low :: pos ++ neg /\ f_xi low = 0%R /\
    Forall (fun f => (0 < f_xi f < 1 / 2)%R) pos /\
    map (fun f => (f_xi f, f_sigma f, f_j f)) neg = map (fun f => (- f_xi f, f_sigma f, f_j f)%R) pos.
Proof.
  intros support p out t HJ HJf H. split; [eapply constructed_jtfs_ok; eassumption|].
  destruct (new_jtfs_bank support p out t HJf H) as (low & pos & neg & A & B & _ & C & D & _). exists low, pos, neg. auto.
Qed.
Print Assumptions C37_constructed_bank.
Example C37_instance : exists p0 S, jtfs_ok Z.sgn (ex_jtfs "list" "joint" TNone SNone) /\
  jtfs_scattering ux Z.sgn (ex_jtfs "list" "joint" TNone SNone) ex_input = Ok (JList p0 S) /\
  map (fun q => (Z.of_nat (q_n_fr q), q_spin q)) S = [(0, 0); (1, 1); (2, 1); (0, 0); (1, 1); (2, 1); (3, -1); (4, -1); (0, 0); (1, 1); (2, 1); (3, -1); (4, -1)].
Proof. eexists _, _. split; [apply ex_jtfs_ok; reflexivity|]. vm_compute. repeat split; reflexivity. Qed.

(** ** C38 *)
(** The padded length is a multiple of 2**J_fr, and the margin falls short of the minimum padding by less than
    2**J_fr (the claim asks for no shortfall). *)
Theorem C38_padding_partial : forall support p out t q0 q1 F, 0 <= p_J (jp_base p) -> 0 <= jp_J_fr p ->
  TimeFrequencyScattering support p out = Ok t -> Q_of (p_Q (jp_base p)) = Ok [QI q0; q1] ->
  T_of (jp_F p) (jp_J_fr p) ((p_J (jp_base p) + 1) * q0) = Ok F ->
  let N_fr := f_N (t_phi_fr t) in let pad := (8 * Qmin F (inject_Z (2 ^ jp_J_fr p)))%Q in
  let n1 := Z.of_nat (List.length (s_psi1 (t_base t))) in
  (2 ^ jp_J_fr p | N_fr) /\ 0 < N_fr /\ (inject_Z N_fr > inject_Z n1 + pad - inject_Z (2 ^ jp_J_fr p))%Q /\
  (jp_F p = TNone -> N_fr > n1 + 7 * 2 ^ jp_J_fr p).
Proof.
  intros support p out t q0 q1 F HJ HJf H EQ EF N_fr pad n1.
  pose proof (constructed_psi1 support p out t q0 q1 HJ H EQ) as (_ & _ & Hlen). fold n1 in Hlen.
  apply new_jtfs_inv in H.
  destruct H as (pb & Q_fr & q0' & q1' & F' & Epb & _ & _ & EQ' & EF' & HN & _ & _ & _ & Ephi & _).
  assert (EQ2 : Q_of (p_Q (jp_base p)) = Ok [QI q0'; q1']) by (subst pb; exact EQ'). rewrite EQ in EQ2. injection EQ2 as <- <-.
  rewrite EF in EF'. injection EF' as <-.
  apply factory_inv1 in Ephi; [|cbn; lia]. destruct Ephi as (_ & _ & EN & _).
  rewrite Z2Nat.id in EN by lia. fold N_fr in EN. rewrite <- EN in HN. rewrite EN in *. clear EN N_fr.
  unfold N_padded_fr_of in *. rewrite Z.max_l in * by exact HJf.
  set (N := (p_J (jp_base p) + 1) * q0) in *. set (K := 2 ^ jp_J_fr p) in *. assert (HK : 0 < K) by (apply Z.pow_pos_nonneg; lia).
  assert (EK : (Qpower 2 (jp_J_fr p) == inject_Z K)%Q) by (unfold K; rewrite Zpower_Qpower by exact HJf; reflexivity).
  set (pad' := (8 * Qmin F (2 ^ jp_J_fr p))%Q) in *. assert (Ep : (pad' == pad)%Q) by (unfold pad', pad; now rewrite EK).
  pose proof (Qlt_floor ((inject_Z N + pad') / inject_Z K)) as Hfl.
  set (fl := Qfloor _) in *.
  assert (Hm : (inject_Z N + pad < inject_Z (fl * K) + inject_Z K)%Q).
  { rewrite <- Ep. assert (HKQ : (0 < inject_Z K)%Q) by (unfold Qlt; cbn; lia).
    apply (Qmult_lt_r _ _ (inject_Z K) HKQ) in Hfl.
    setoid_replace ((inject_Z N + pad') / inject_Z K * inject_Z K)%Q with (inject_Z N + pad')%Q in Hfl.
    2:{ field. intros E0. rewrite E0 in HKQ. discriminate HKQ. }
    eapply Qlt_le_trans; [exact Hfl|]. rewrite inject_Z_plus, inject_Z_mult. change (inject_Z 1) with 1%Q.
    apply Qle_lteq. right. ring. }
  split; [exists fl; reflexivity|]. split; [exact HN|]. split.
  - assert (Hn1 : (inject_Z n1 <= inject_Z N)%Q) by (rewrite <- Zle_Qle; lia). lra.
  - intros EFn. rewrite EFn in EF. unfold T_of, parse_T in EF. cbn [bind] in EF. injection EF as EF. cbn [fst] in EF.
    assert (EP : (pad == inject_Z (8 * K))%Q).
    { unfold pad. rewrite inject_Z_mult. rewrite <- EF. rewrite EK. rewrite Q.min_id. reflexivity. }
    rewrite EP in Hm. rewrite <- !inject_Z_plus in Hm. rewrite <- Zlt_Qlt in Hm. lia.
Qed.
Print Assumptions C38_padding_partial.
Example C38_instance : forall N, 256 <= N -> exists t,
  TimeFrequencyScattering (fun _ _ => 0) (default_jparams 8 N 1 3 TNone "joint") "list" = Ok t /\ (8 | f_N (t_phi_fr t)) /\
  f_N (t_phi_fr t) > Z.of_nat (List.length (s_psi1 (t_base t))) + 56.
Proof.
  intros N HN.
  destruct (jtfs_instance (fun _ _ => 0) 8 N 1 3 TNone (Qpower 2 3) "list" "joint") as (t & Ht); try lia; try reflexivity; try (cbn; lia).
  exists t. split; [exact Ht|]. destruct (C38_padding_partial _ _ _ _ 1 (QI 1) 8%Q (ltac:(cbn; lia) : 0 <= p_J (jp_base (default_jparams 8 N 1 3 TNone "joint"))) (ltac:(cbn; lia) : 0 <= 3) Ht eq_refl eq_refl) as (A & _ & _ & B).
  split; [exact A|exact (B eq_refl)].
Qed.
(** The claim itself fails: J = 8, Q = 1, J_fr = 3 gives 9 first-order wavelets and 72 padded bins, where the minimum
    padding 8*2**3 asks for 73.  With F = 1 and J = 99, J_fr = 6 there are fewer padded bins (64) than the
    (J+1)*Q = 100 positions that the formula starts from. *)
Theorem C38_margin_refuted : forall N format out, 256 <= N ->
  (exists t, TimeFrequencyScattering (fun _ _ => 0) (default_jparams 8 N 1 3 TNone format) out = Ok t /\
    let n1 := Z.of_nat (List.length (s_psi1 (t_base t))) in
    n1 = 9 /\ f_N (t_phi_fr t) = 72 /\ f_N (t_phi_fr t) < n1 + 8 * 2 ^ 3) /\
  N_padded_fr_of ((99 + 1) * 1) 6 1 = 64.
Proof.
  intros N format out HN. split; [|reflexivity].
  destruct (jtfs_instance (fun _ _ => 0) 8 N 1 3 TNone (Qpower 2 3) out format) as (t & Ht); try lia; try reflexivity; try (cbn; lia).
  exists t. split; [exact Ht|].
  pose proof (constructed_psi1 _ _ _ _ 1 (QI 1) (ltac:(cbn; lia) : 0 <= p_J (jp_base (default_jparams 8 N 1 3 TNone format))) Ht eq_refl) as (E & _ & _).
  assert (Hn : List.length (s_psi1 (t_base t)) = 9%nat).
  { rewrite <- (map_length params_of), E. cbn [jp_base default_jparams p_J].
    rewrite (anden_unique 8 1 sigma0 r_psi _ _ (anden_list_ok 8 1 ltac:(lia) ltac:(lia)) (anden_Q1 8 ltac:(lia))). reflexivity. }
  cbn zeta. rewrite Hn. split; [reflexivity|].
  assert (HN72 : f_N (t_phi_fr t) = 72); [|rewrite HN72; split; [reflexivity|cbn; lia]].
  apply new_jtfs_inv in Ht. destruct Ht as (pb & Q_fr & q0' & q1' & F' & Epb & _ & _ & EQ' & EF' & _ & _ & _ & _ & Ephi & _).
  subst pb. cbn in EQ'. injection EQ' as <- <-. cbn [jp_F default_jparams jp_J_fr jp_base p_J] in EF'. 
  unfold T_of, parse_T in EF'. cbn [bind fst] in EF'. injection EF' as <-.
  apply factory_inv1 in Ephi; [|cbn; lia]. destruct Ephi as (_ & _ & EN & _). rewrite EN. reflexivity.
Qed.
Print Assumptions C38_margin_refuted.

(** ** C39 *)
(** The row of meta['n'] that describes a path of the joint format: the range of its labels n1, and n2. *)
Definition joint_row {X} (q : jpath X) (r : list mcell) : Prop :=
  exists k rng, q_n1_stride q = PInt k /\ 0 < k /\
    rng = map Z.of_nat (labels (Z.to_nat (q_n1_max q)) (Z.to_nat k)) /\
    r = [CRange rng; match q_n q with [n2; _] => CIdx n2 | _ => CNan end].

Lemma range_step_labels m k : 0 <= m -> 0 < k -> range_step m (PInt k) = Ok (map Z.of_nat (labels (Z.to_nat m) (Z.to_nat k))).
Proof.
  intros Hm Hk.
  assert (exists r, range_step m (PInt k) = Ok r /\ Forall (fun z => 0 <= z) r) as (r & Hr & Hp).
  { cbn [range_step]. destruct (Z.eqb_spec k 0); [lia|]. destruct (Z.ltb_spec k 0); [lia|]. eexists. split; [reflexivity|].
    apply Forall_map, Forall_forall. intros i _. nia. }
  rewrite Hr. f_equal. rewrite <- (Z2Nat.id m Hm) in Hr. destruct (range_labels _ _ _ Hr) as (k' & Ek & H). injection Ek as <-.
  rewrite <- (H Hk), map_map. symmetry. rewrite <- (map_id r) at 2. apply map_ext_in. intros z Hz. rewrite Forall_forall in Hp. specialize (Hp z Hz). lia.
Qed.
Lemma jpaths_order X W P (be : backend X W) sgn (s : jtfs W P) x p0 S q : jpaths be sgn s x = Ok (p0, S) -> In q S ->
  q_order q = (List.length (q_j q) - if String.eqb (t_format s) "time" then 1 else 0)%nat /\ (1 <= List.length (q_j q) <= 2)%nat.
Proof.
  intros H Hq. apply jpaths_erase in H as (ls_fr & a_fr & E1 & E2 & E3 & E4 & E5).
  apply (in_map erase) in Hq. rewrite E5 in Hq. apply in_flat_map in Hq as (sl & Hs & Hq).
  assert (G : List.length (q_n sl) = List.length (q_j sl) /\ (1 <= List.length (q_j sl) <= 2)%nat).
  { unfold slots in Hs. apply in_app_iff in Hs as [Hs|Hs].
    - apply in_map_iff in Hs as ([n psi] & <- & _). cbn. lia.
    - apply in_flat_map in Hs as ([n2 f2] & _ & Hs). destruct (Nat.ltb _ _); [|destruct Hs]. apply in_map_iff in Hs as ([n psi] & <- & _). cbn. lia. }
  change (q_order q) with (q_order (erase q)). change (q_j q) with (q_j (erase q)).
  unfold fmt in Hq. set (sl' := restride ls_fr a_fr sl) in Hq.
  assert (R : q_n sl' = q_n sl /\ q_j sl' = q_j sl).
  { subst sl'. unfold restride. destruct a_fr; try (destruct (_ =? 0)); split; reflexivity. }
  destruct R as [R1 R2]. destruct E4 as [E4|[E4|[]]]; rewrite <- E4 in *; cbn [String.eqb Ascii.eqb Bool.eqb] in *.
  - destruct (range_step _ _) as [r|]; [|destruct Hq]. apply in_map_iff in Hq as (n1 & <- & _).
    cbn [label set_n set_order q_order q_j]. rewrite R1, R2. lia.
  - destruct Hq as [<-|[]]. cbn [set_order q_order q_j]. rewrite R1, R2. lia.
Qed.

(** Joint format.  [lead] is the number of leading rows for the zeroth order: meta() leaves it out exactly for array
    output, as scattering() does, except in 'key'. *)
Theorem C39_joint_meta_partial : forall X W P (be : backend X W) sgn (s : jtfs W P) x p0 S,
  jtfs_ok sgn s -> t_format s = "joint"%string -> jpaths be sgn s x = Ok (p0, S) ->
  let lead := if String.eqb (s_out_type (t_base s)) "array" then 0%nat else 1%nat in
  jtfs_scattering be sgn s x =
    (if String.eqb (s_out_type (t_base s)) "array"
     then match be_stack be (map q_coef S) (-3) with Ok arr => Ok (JArray arr) | Err e => Err e end
     else if String.eqb (s_out_type (t_base s)) "dict" then Ok (JDict ((p_n p0, p_coef p0) :: map (fun q => (q_n q, q_coef q)) S))
     else Ok (JList p0 S)) /\
  exists m rows, jtfs_meta sgn s = Ok m /\
    jm_key m = p_n p0 :: map q_n S /\
    jm_n m = repeat [CNan; CNan] lead ++ rows /\ Forall2 joint_row S rows /\
    jm_n_fr m = repeat None lead ++ map (fun q => Some (q_n_fr q)) S /\
    jm_order m = repeat 0%nat lead ++ map q_order S /\
    jm_spin m = repeat None lead ++ map (fun q => Some (q_spin q)) S /\
    jm_j_fr m = repeat None lead ++ map (fun q => Some (q_j_fr q)) S.
Proof.
  intros X W P be sgn s x p0 S Hok Hf H lead. pose proof (jpaths_keys be sgn s x p0 S Hok H) as (ls_fr & a_fr & _ & _ & _ & _ & Hk). split.
  { unfold jtfs_scattering. rewrite H. cbn [bind]. unfold jcontainer. rewrite Hf. cbn [String.eqb Ascii.eqb Bool.eqb].
    destruct (String.eqb (s_out_type (t_base s)) "array"); [destruct (be_stack _ _ _); reflexivity|].
    destruct (String.eqb (s_out_type (t_base s)) "dict"); [|reflexivity]. rewrite jdict_fold; [reflexivity|].
    cbn [dict_set map fst app]. rewrite Hk. apply jkeys_NoDup. }
  destruct (meta_run be sgn s x p0 S Hok H) as (m & cells & M0 & M1 & M2 & M3 & M4 & M5 & M6 & M7 & _).
  rewrite (joint_sorted be sgn s x p0 S Hok H Hf) in *. pose proof (jpaths_keys be sgn s x p0 S Hok H) as (_ & _ & _ & _ & _ & Hp0 & _).
  exists m, cells. split; [exact M0|]. rewrite Hf in *. cbn [String.eqb Ascii.eqb Bool.eqb andb] in *.
  assert (EL : forall A (a : A), (if String.eqb (s_out_type (t_base s)) "array" then [] else [a]) = repeat a lead).
  { intros. unfold lead. destruct (String.eqb _ _); reflexivity. }
  rewrite Hp0, M2, M3, M4, M5, M6, M7. rewrite !EL, !map_map. cbn [erase set_coef q_n q_n_fr q_spin q_j_fr].
  split; [reflexivity|]. split; [reflexivity|]. split; [|split; [reflexivity|split; [|split; reflexivity]]].
  - apply mapM_ok in M1. 
    assert (G : forall q, In q S -> exists k, q_n1_stride q = PInt k /\ 0 < k /\ 0 <= q_n1_max q /\ (List.length (q_n q) = 1 \/ List.length (q_n q) = 2)%nat).
    { intros q Hq. destruct (jpaths_slots be sgn s x p0 S q Hok H Hq) as (n & psi & _ & _ & _ & _ & _ & L & Hm & k & Hk1 & Hk2).
      exists k. repeat split; try assumption. rewrite L, Hf. cbn [String.eqb Ascii.eqb Bool.eqb]. destruct (Nat.eqb _ _); auto. }
    clear -M1 G. revert cells M1 G. induction S as [|q S IH]; intros cells M1 G; cbn [map] in M1; inversion M1 as [|? c ? cells' Hc F]; subst; constructor.
    + destruct (G q (or_introl eq_refl)) as (k & K1 & K2 & K3 & K4). exists k. eexists. split; [exact K1|]. split; [exact K2|]. split; [reflexivity|].
      unfold meta_cells in Hc. cbn [erase set_coef q_n q_n1_max q_n1_stride] in Hc. rewrite K1, range_step_labels in Hc by assumption.
      destruct (q_n q) as [|a [|b [|c' l]]]; cbn in K4; try lia; cbn [bind String.eqb Ascii.eqb Bool.eqb] in Hc; injection Hc as <-; reflexivity.
    + apply IH; [exact F|]. intros; apply G; now right.
  - f_equal. apply map_ext_in. intros q Hq.
    destruct (jpaths_order _ _ _ be sgn s x p0 S q H Hq) as [O1 O2]. destruct (jpaths_slots be sgn s x p0 S q Hok H Hq) as (n & psi & _ & _ & _ & _ & _ & L & _).
    rewrite Hf in *. cbn [String.eqb Ascii.eqb Bool.eqb] in *. rewrite O1, L. destruct (Nat.eqb_spec (List.length (q_j q)) 1); lia.
Qed.
Print Assumptions C39_joint_meta_partial.

Lemma isort_map {A B} (le : B -> B -> bool) (f : A -> B) l : isort le (map f l) = map f (isort (fun a b => le (f a) (f b)) l).
Proof.
  induction l as [|a l IH]; [reflexivity|]. cbn [map isort]. rewrite IH. generalize (isort (fun a b => le (f a) (f b)) l). clear.
  induction l as [|b l IH]; [reflexivity|]. cbn [map insert]. destruct (le (f a) (f b)); [reflexivity|]. cbn [map]. now rewrite IH.
Qed.
Lemma isort_sorted {A} (le : A -> A -> bool) l : (forall a b, le a b = true \/ le b a = true) -> (forall a b c, le a b = true -> le b c = true -> le a c = true) ->
  StronglySorted (fun a b => le a b = true) (isort le l).
Proof.
  intros Ht Htr. induction l as [|a l IH]; cbn [isort]; [constructor|]. revert IH. generalize (isort le l). clear -Ht Htr.
  induction l as [|b l IH]; intros H; cbn [insert]; [repeat constructor|]. destruct (le a b) eqn:E.
  - constructor; [exact H|]. inversion H; subst. constructor; [exact E|]. eapply Forall_impl; [|eassumption]. cbn beta. intros c. now apply Htr.
  - inversion H; subst. constructor; [now apply IH|]. assert (E' : le b a = true) by (destruct (Ht a b); congruence).
    apply Forall_forall. intros c Hc. apply (Permutation_in _ (insert_perm _ _ _)) in Hc. destruct Hc as [<-|Hc]; [exact E'|].
    rewrite Forall_forall in H3. now apply H3.
Qed.

(** Time format: meta() describes the paths, one row each, but in the sorted order of their keys, whereas list, dict
    and array outputs follow the order in which the paths are generated. *)
Theorem C39_time_meta_partial : forall X W P (be : backend X W) sgn (s : jtfs W P) x p0 S,
  jtfs_ok sgn s -> t_format s = "time"%string -> jpaths be sgn s x = Ok (p0, S) ->
  exists m S', jtfs_meta sgn s = Ok m /\ Permutation S' S /\
    StronglySorted (fun a b => key_leb a b = true) (map q_n S') /\
    jm_key m = p_n p0 :: map q_n S' /\
    jm_n m = [CNan; CNan] :: map (fun q => match q_n q with
                                           | [n1; _] => [CIdx n1; CNan]
                                           | [n1; n2; _] => [CIdx n1; CIdx n2]
                                           | _ => [] end) S' /\
    jm_n_fr m = None :: map (fun q => Some (q_n_fr q)) S' /\
    jm_order m = 0%nat :: map (fun q => List.length (q_j q)) S' /\
    jm_spin m = None :: map (fun q => Some (q_spin q)) S' /\
    jm_j_fr m = None :: map (fun q => Some (q_j_fr q)) S'.
Proof.
  intros X W P be sgn s x p0 S Hok Hf H.
  destruct (meta_run be sgn s x p0 S Hok H) as (m & cells & M0 & M1 & M2 & M3 & M4 & M5 & M6 & M7 & _).
  pose proof (jpaths_keys be sgn s x p0 S Hok H) as (_ & _ & _ & _ & _ & Hp0 & _).
  rewrite isort_map in *. set (S' := isort _ S) in *. rewrite Hf in *. cbn [String.eqb Ascii.eqb Bool.eqb andb] in *.
  pose proof (isort_perm (fun a b : jpath X => key_leb (q_n (erase a)) (q_n (erase b))) S) as HP. fold S' in HP.
  assert (HL : forall q, In q S' -> List.length (q_n q) = Datatypes.S (List.length (q_j q)) /\ (1 <= List.length (q_j q) <= 2)%nat).
  { intros q Hq. apply (Permutation_in _ HP) in Hq. destruct (jpaths_order _ _ _ be sgn s x p0 S q H Hq) as [_ O2].
    destruct (jpaths_slots be sgn s x p0 S q Hok H Hq) as (n & psi & _ & _ & _ & _ & _ & L & _).
    rewrite Hf in L. cbn [String.eqb Ascii.eqb Bool.eqb] in L. split; [|exact O2]. destruct (Nat.eqb_spec (List.length (q_j q)) 1); lia. }
  exists m, S'. split; [exact M0|]. split; [exact HP|]. rewrite Hp0, M2, M3, M4, M5, M6, M7. cbn [app]. rewrite !map_map.
  cbn [erase set_coef q_n q_n_fr q_spin q_j_fr]. split; [|split; [reflexivity|split; [|split; [reflexivity|split; [|split; reflexivity]]]]].
  - pose proof (isort_sorted (fun a b : jpath X => key_leb (q_n a) (q_n b)) S (fun a b => key_leb_total _ _) (fun a b c => key_leb_trans _ _ _)) as HS.
    change (isort (fun a b : jpath X => key_leb (q_n a) (q_n b)) S) with S' in HS. eapply StronglySorted_map; [exact HS|]. auto.
  - f_equal. apply mapM_ok in M1. clear -M1 HL. revert cells M1. induction S' as [|q l IH]; intros cells M1; cbn [map] in M1; inversion M1 as [|? c ? cells' Hc F]; subst; [reflexivity|].
    cbn [map]. rewrite (IH (fun q Hq => HL q (or_intror Hq)) cells' F). f_equal. destruct (HL q (or_introl eq_refl)) as [L1 L2].
    unfold meta_cells in Hc. cbn [erase set_coef q_n] in Hc. destruct (q_n q) as [|a [|b [|c' [|]]]]; cbn in L1; try lia; cbn in Hc; injection Hc as <-; reflexivity.
  - f_equal. apply map_ext_in. intros q Hq. destruct (HL q Hq). lia.
Qed.
Print Assumptions C39_time_meta_partial.

(** The claim fails.  Joint array: meta()['key'] has one row more than the array has channels, so that row k names the
    path of channel k-1.  Time array: channel 2 is the path (n1, n_fr) = (2, 0), while row 2 of meta() is about (0, 1). *)
Theorem C39_alignment_refuted :
  (exists y p0 S m, jtfs_scattering ux Z.sgn (ex_jtfs "array" "joint" TNone SNone) ex_input = Ok (JArray y) /\
     jpaths ux Z.sgn (ex_jtfs "array" "joint" TNone SNone) ex_input = Ok (p0, S) /\
     jtfs_meta Z.sgn (ex_jtfs "array" "joint" TNone SNone) = Ok m /\
     nd_shape y = [2; 5; 13; 4; 1]%nat /\ List.length (jm_key m) = 14%nat /\ List.length (jm_n_fr m) = 13%nat /\
     nth 1 (jm_key m) [] = [0%nat] /\ nth 1 (map q_n S) [] = [1%nat]) /\
  (exists y p0 S m, jtfs_scattering ux Z.sgn (ex_jtfs "array" "time" TNone SNone) ex_input = Ok (JArray y) /\
     jpaths ux Z.sgn (ex_jtfs "array" "time" TNone SNone) ex_input = Ok (p0, S) /\
     jtfs_meta Z.sgn (ex_jtfs "array" "time" TNone SNone) = Ok m /\
     nd_shape y = [2; 5; 22; 1]%nat /\
     nth 2 (p_n p0 :: map q_n S) [] = [2; 0]%nat /\ nth 2 (jm_key m) [] = [0; 1]%nat /\ nth 2 (jm_n_fr m) None = Some 1%nat).
Proof. split; vm_compute; eexists _, _, _, _; repeat split; reflexivity. Qed.
Print Assumptions C39_alignment_refuted.
Example C39_instance : exists p0 S m p0' S' m',
  jpaths ux Z.sgn (ex_jtfs "list" "joint" TNone SNone) ex_input = Ok (p0, S) /\
  jtfs_meta Z.sgn (ex_jtfs "list" "joint" TNone SNone) = Ok m /\ map q_n S = skipn 1 (jm_key m) /\
  jm_order m = [0; 1; 1; 1; 2; 2; 2; 2; 2; 2; 2; 2; 2; 2]%nat /\
  jpaths ux Z.sgn (ex_jtfs "list" "time" TNone SNone) ex_input = Ok (p0', S') /\
  jtfs_meta Z.sgn (ex_jtfs "list" "time" TNone SNone) = Ok m' /\ List.length (jm_key m') = Datatypes.S (List.length S').
Proof. vm_compute; eexists _, _, _, _, _, _; repeat split; reflexivity. Qed.

(** ** C61 *)
(** Row i of the second-order stack of n2 is computed from the i-th first-order wavelet: the label i that JTFS gives to
    that row (in the range of n1) is the index of the wavelet.  Hypothesis: the first-order scales do not decrease. *)
Theorem C61_row_labels : forall X W P (be : backend X W) U (phi : filter W P) psi1 psi2 ls al p0 S1 Ys,
  (forall i k a b, (i < k)%nat -> nth_error (map f_j psi1) i = Some a -> nth_error (map f_j psi1) k = Some b -> a <= b) ->
  widthfirst be U phi psi1 psi2 ls al = Ok (p0, S1, Ys) ->
  forall Y, In Y Ys -> exists n2 f2 coefs, nth_error psi2 n2 = Some f2 /\ w_n Y = [n2] /\ w_j Y = [-1; f_j f2] /\
    be_stack be coefs 2 = Ok (w_coef Y) /\ w_n1_max Y = Z.of_nat (List.length coefs) /\
    (forall n1 f1, nth_error psi1 n1 = Some f1 -> f_j f1 < f_j f2 <-> (n1 < List.length coefs)%nat) /\
    forall n1 c, nth_error coefs n1 = Some c -> exists f1 U0h U1m U1h w c1 c2,
      nth_error psi1 n1 = Some f1 /\ be_rfft be U = Ok U0h /\
      order1_modulus be U0h f1 (if al then Z.min (f_j f1) ls else f_j f1) = Ok U1m /\ be_rfft be U1m = Ok U1h /\
      let k1 := if al then Z.min (f_j f1) ls else f_j f1 in
      py_index (f_levels f2) k1 = Ok w /\ be_cdgmm be U1h w = Ok c1 /\
      be_subsample be c1 (pow2 (if al then Z.min (f_j f2 - k1) ls else f_j f2 - k1)) = Ok c2 /\ be_ifft be c2 = Ok c.
Proof.
  intros X W P be U phi psi1 psi2 ls al p0 S1 Ys Hs H Y HY.
  apply widthfirst_inv in H as (U0h & l1 & ll & E1 & _ & E3 & _ & _ & E6 & ->). pose proof (width1_j be _ _ _ _ _ _ E3) as Hj.
  apply in_concat in HY as (l & Hl & HY). apply mapM_ok in E6. destruct (Forall2_In_r _ _ _ _ E6 Hl) as ([n2 f2] & Hn & E). apply In_enumerate in Hn.
  apply (width2_all_inv be _ _ _ _ _ psi1 _ Hj) in E. destruct (Nat.ltb_spec 0 (smaller psi1 (f_j f2))) as [Hpos|]; [|subst l; destruct HY].
  destruct E as (Yc & ys & -> & Eys & Est). destruct HY as [<-|[]]. exists n2, f2, (concat ys). cbn [w_n w_j w_coef w_n1_max].
  split; [exact Hn|]. split; [reflexivity|]. split; [reflexivity|]. split; [exact Est|].
  apply mapM_ok in Eys. pose proof (concat_length_flag (fun u : X * Z => snd u <? f_j f2) _ _ _ (fun a b Hab => width2_length be f2 ls al a b Hab) Eys) as Hlen.
  rewrite (smaller_width1 psi1 l1 _ Hj) in Hlen. split; [rewrite Hlen; reflexivity|].
  assert (Hpre : forall n1 f1, nth_error psi1 n1 = Some f1 -> f_j f1 < f_j f2 <-> (n1 < smaller psi1 (f_j f2))%nat).
  { unfold smaller. clear -Hs. induction psi1 as [|f psi1 IH]; intros n1 f1 Hn1; [destruct n1; discriminate|]. cbn [List.filter].
    assert (IH' : forall n1 f1, nth_error psi1 n1 = Some f1 -> f_j f1 < f_j f2 <-> (n1 < List.length (List.filter (fun f => (f_j f <? f_j f2)%Z) psi1))%nat).
    { apply IH. intros i k a b Hik Ha Hb. apply (Hs (Datatypes.S i) (Datatypes.S k) a b); [lia|assumption..]. }
    destruct (Z.ltb_spec (f_j f) (f_j f2)) as [L|L].
    - cbn [List.length]. destruct n1 as [|n1]; cbn [nth_error] in Hn1; [injection Hn1 as <-; lia|]. rewrite (IH' _ _ Hn1). lia.
    - assert (G : forall k g, nth_error psi1 k = Some g -> f_j f2 <= f_j g).
      { intros k g Hg. specialize (Hs 0%nat (Datatypes.S k) (f_j f) (f_j g) ltac:(lia) eq_refl). cbn [map nth_error] in Hs.
        rewrite nth_error_map, Hg in Hs. specialize (Hs eq_refl). lia. }
      assert (E0 : List.length (List.filter (fun f => f_j f <? f_j f2) psi1) = 0%nat).
      { clear -G. induction psi1 as [|g psi1 IH]; [reflexivity|]. cbn [List.filter]. pose proof (G 0%nat g eq_refl).
        destruct (Z.ltb_spec (f_j g) (f_j f2)); [lia|]. apply IH. intros k. apply (G (Datatypes.S k)). }
      rewrite E0. destruct n1 as [|n1]; cbn [nth_error] in Hn1; [injection Hn1 as <-; lia|]. specialize (G _ _ Hn1). lia. }
  split; [rewrite Hlen; exact Hpre|].
  intros n1 c Hc. assert (Hn1 : (n1 < smaller psi1 (f_j f2))%nat) by (rewrite <- Hlen; apply nth_error_Some; congruence).
  assert (Hf1 : exists f1, nth_error psi1 n1 = Some f1).
  { destruct (nth_error psi1 n1) eqn:E; [eauto|]. apply nth_error_None in E. exfalso. unfold smaller in Hn1.
    assert (Hle : (List.length (List.filter (fun f => (f_j f <? f_j f2)%Z) psi1) <= List.length psi1)%nat).
    { clear. induction psi1 as [|g l IH]; [cbn; lia|]. cbn [List.filter]. destruct (_ <? _); cbn [List.length]; lia. }
    lia. }
  destruct Hf1 as (f1 & Hf1).
  assert (G : forall us ys, Forall2 (fun u y => width2 be f2 ls al u = Ok y) us ys ->
     (forall i, (i <= n1)%nat -> exists u, nth_error us i = Some u /\ snd u < f_j f2) ->
     nth_error (concat ys) n1 = Some c -> exists u, nth_error us n1 = Some u /\ width2 be f2 ls al u = Ok [c]).
  { clear. intros us ys F. revert n1. induction F as [|u y us ys Hu F IH]; intros n1 Hi Hc; [destruct n1; discriminate|].
    destruct (Hi 0%nat ltac:(lia)) as (u' & Eu & Hlt). injection Eu as <-.
    assert (exists d, y = [d]) as (d & ->).
    { apply (width2_length be) in Hu. apply Z.ltb_lt in Hlt. rewrite Hlt in Hu. destruct y as [|d [|]]; try discriminate. eauto. }
    cbn [concat app] in Hc. destruct n1 as [|n1]; cbn [nth_error] in Hc |- *.
    - injection Hc as ->. eauto.
    - apply IH; [|exact Hc]. intros i Hi'. apply (Hi (Datatypes.S i)). lia. }
  destruct (G _ _ Eys) as (u & Hu & Eu); [|exact Hc|].
  { intros i Hi. assert (exists fi, nth_error psi1 i = Some fi) as (fi & Hfi).
    { destruct (nth_error psi1 i) eqn:E; [eauto|]. apply nth_error_None in E. assert (n1 < List.length psi1)%nat by (apply nth_error_Some; congruence). lia. }
    assert (Hjj : f_j fi < f_j f2) by (apply (Hpre i fi Hfi); lia).
    apply (map_nth_error f_j) in Hfi. rewrite <- Hj in Hfi. rewrite nth_error_map in Hfi. rewrite nth_error_map.
    destruct (nth_error l1 i) as [t|]; [|discriminate]. cbn [option_map] in *. injection Hfi as Hfi. eexists. split; [reflexivity|]. lia. }
  rewrite nth_error_map in Hu. destruct (nth_error l1 n1) as [t|] eqn:Et; [|discriminate]. cbn [option_map] in Hu. injection Hu as Hu.
  apply mapM_ok in E3. destruct (Forall2_nth_error_r _ _ _ _ _ E3 Et) as (f1' & Hf1' & Ew). rewrite Hf1 in Hf1'. injection Hf1' as <-.
  unfold width1 in Ew. inv_binds Ew. injection Ew as Ew. subst t. cbn [fst] in Hu. subst u. unfold width2 in Eu.
  destruct (f_j f1 <? f_j f2); [|discriminate]. inv_binds Eu. injection Eu as <-.
  exists f1, U0h. eexists _, _, _, _, _. cbn zeta. repeat (split; [eassumption|]). assumption.
Qed.
Print Assumptions C61_row_labels.
Theorem C61_constructed : forall support p out t q0 q1 i k a b, 0 <= p_J (jp_base p) -> TimeFrequencyScattering support p out = Ok t ->
  Q_of (p_Q (jp_base p)) = Ok [QI q0; q1] -> (i < k)%nat ->
  nth_error (map f_j (s_psi1 (t_base t))) i = Some a -> nth_error (map f_j (s_psi1 (t_base t))) k = Some b -> a <= b.
Proof.
  intros support p out t q0 q1 i k a b HJ H EQ Hik Ha Hb. destruct (constructed_psi1 support p out t q0 q1 HJ H EQ) as (B1 & B2 & _).
  rewrite nth_error_map in Ha, Hb. destruct (nth_error (s_psi1 (t_base t)) i) as [f|] eqn:Ef; [|discriminate].
  destruct (nth_error (s_psi1 (t_base t)) k) as [g|] eqn:Eg; [|discriminate]. cbn [option_map] in Ha, Hb. injection Ha as <-. injection Hb as <-.
  rewrite Forall_forall in B2. rewrite (B2 f (nth_error_In _ _ Ef)), (B2 g (nth_error_In _ _ Eg)).
  apply (map_nth_error params_of) in Ef, Eg. rewrite B1 in Ef, Eg. pose proof (Q_of_ge1 _ _ _ EQ) as Hq.
  exact (anden_scale_sorted _ _ _ i k _ _ HJ Hq (anden_list_ok _ _ HJ Hq) Hik Ef Eg).
Qed.
Print Assumptions C61_constructed.
Example C61_instance : exists p0 S1 Ys, let b := ex_scat "list" 2 TNone SNone in
  map f_j (s_psi1 b) = [0; 0; 1] /\
  widthfirst ux (mk_nd Real [2; 1; 16]%nat (repeat tt 32)) (s_phi b) (s_psi1 b) (s_psi2 b) 3 true = Ok (p0, S1, Ys) /\
  map (fun Y => (w_n Y, w_n1_max Y)) Ys = [([1]%nat, 2); ([2]%nat, 3)].
Proof. vm_compute. eexists _, _, _. repeat split; reflexivity. Qed.

(** ** C62 *)
(** 'j' has one entry at order one and two at order two.  In the joint format 'order' agrees with it; in the time
    format it is one less. *)
Theorem C62_order_partial : forall X W P (be : backend X W) sgn (s : jtfs W P) x p0 S q,
  jpaths be sgn s x = Ok (p0, S) -> In q S ->
  (1 <= List.length (q_j q) <= 2)%nat /\
  (t_format s = "joint"%string -> q_order q = List.length (q_j q)) /\
  (t_format s = "time"%string -> q_order q = (List.length (q_j q) - 1)%nat).
Proof.
  intros X W P be sgn s x p0 S q H Hq. destruct (jpaths_order _ _ _ be sgn s x p0 S q H Hq) as [O1 O2]. split; [exact O2|].
  split; intros Hf; rewrite Hf in O1; cbn [String.eqb Ascii.eqb Bool.eqb] in O1; rewrite O1; lia.
Qed.
Print Assumptions C62_order_partial.
Example C62_instance : exists p0 S p0' S',
  jpaths ux Z.sgn (ex_jtfs "list" "joint" TNone SNone) ex_input = Ok (p0, S) /\
  map q_order S = [1; 1; 1; 2; 2; 2; 2; 2; 2; 2; 2; 2; 2]%nat /\
  jpaths ux Z.sgn (ex_jtfs "list" "time" TNone SNone) ex_input = Ok (p0', S') /\
  map q_order S' = [0; 0; 0; 0; 0; 0; 1; 1; 1; 1; 1; 1; 1; 1; 1; 1; 1; 1; 1; 1; 1]%nat.
Proof. vm_compute. eexists _, _, _, _. repeat split; reflexivity. Qed.
Theorem C62_order_refuted : exists p0 S q, jtfs_scattering ux Z.sgn (ex_jtfs "list" "time" TNone SNone) ex_input = Ok (JList p0 S) /\
  In q S /\ q_n q = [0; 0]%nat /\ q_j q = [-1] /\ q_order q = 0%nat.
Proof. vm_compute. eexists _, _, _. split; [reflexivity|]. split; [left; reflexivity|]. repeat split. Qed.
Print Assumptions C62_order_refuted.

(** ** C63 *)
(** The time resolution of the coefficients that reach the unpadding: first-order coefficients were averaged and
    subsampled down to log2_stride by the width-first scattering, whatever the averaging; second-order coefficients are
    at log2_stride with local averaging and at j2 without averaging. *)
Definition time_resolution (a : avg) (ls : Z) (js : list Z) : Z :=
  match a, js with NoAvg, [_; j2] => j2 | _, _ => ls end.
Theorem C63_unpadding_partial : forall X W P (be : backend X W) (s : jtfs W P) a ls batch q q',
  t_format s = "joint"%string -> s_log2_stride (t_base s) = Ok ls -> 0 <= ls -> a <> Global ->
  List.length (q_n q) = List.length (q_j q) -> (1 <= List.length (q_j q) <= 2)%nat -> 0 <= last (q_j q) 0 \/ List.length (q_j q) = 1%nat ->
  jfinish be s a batch q = Ok q' ->
  exists i0 i1 c, dict_get (s_ind_start (t_base s)) (time_resolution a ls (q_j q)) = Ok i0 /\
    dict_get (s_ind_end (t_base s)) (time_resolution a ls (q_j q)) = Ok i1 /\
    be_unpad be (q_coef q) i0 i1 = Ok c /\ be_reshape_output be c batch 2 = Ok (q_coef q').
Proof.
  intros X W P be s a ls batch q q' Hf Hls Hls0 Ha Hn Hj Hj2 H. unfold jfinish in H. rewrite Hf, Hn in H. cbn [String.eqb Ascii.eqb Bool.eqb] in H.
  inv_bind H. inv_bind H. injection H as <-. cbn [set_coef q_coef].
  assert (R : (if is_none_avg a && Nat.ltb 1 (List.length (q_j q)) then j <- py_index (q_j q) (-1) ;; Ok (Z.max j 0)
              else l <- s_log2_stride (t_base s) ;; Ok (Z.max l 0)) = Ok (time_resolution a ls (q_j q))).
  { rewrite Hls. destruct (q_j q) as [|j1 [|j2 [|]]]; cbn in Hj, Hj2; try lia; destruct a; try congruence;
      cbn [is_none_avg List.length Nat.ltb Nat.leb andb bind time_resolution]; f_equal; try (apply Z.max_l; lia).
    change (py_index [j1; j2] (-1)) with (Ok j2). cbn [bind]. f_equal. apply Z.max_l. lia. }
  assert (E' : (resol <- Ok (time_resolution a ls (q_j q)) ;; i0 <- dict_get (s_ind_start (t_base s)) resol ;;
               i1 <- dict_get (s_ind_end (t_base s)) resol ;; be_unpad be (q_coef q) i0 i1) = Ok v).
  { rewrite <- R. destruct a; try congruence; exact E. }
  cbn [bind] in E'. inv_bind E'. inv_bind E'. exists v1, v2, v. auto.
Qed.
Print Assumptions C63_unpadding_partial.
Example C63_instance : exists p0 S q q', let s := ex_jtfs "list" "joint" TNone SNone in
  jpaths ux Z.sgn s ex_input = Ok (p0, S) /\ In q S /\ q_n q = [1; 0]%nat /\ List.length (q_j q) = 2%nat /\ 0 <= last (q_j q) 0 /\
  s_log2_stride (t_base s) = Ok 3 /\ s_average (t_base s) = Ok Local /\
  jfinish ux s Local [2; 5]%nat q = Ok q' /\ nd_shape (q_coef q') <> nd_shape (q_coef q).
Proof.
  eexists _, _, _, _. cbn zeta. split; [vm_compute; reflexivity|]. split; [right; right; right; left; reflexivity|].
  split; [reflexivity|]. split; [reflexivity|]. split; [cbn; lia|]. split; [reflexivity|]. split; [reflexivity|]. split; [vm_compute; reflexivity|]. discriminate.
Qed.
(** Time format, T = 0: the first-order coefficients, of two samples at log2_stride = 3, are cut with the bounds 3:12 of
    resolution 0 and come out empty; the joint format returns one sample. *)
Theorem C63_unpadding_refuted :
  let time := ex_jtfs "list" "time" TNone SNone in let joint := ex_jtfs "list" "joint" TNone SNone in
  let base := ex_scat "list" 2 (TNum 0) SNone in
  let with_base t := {| t_base := base; t_phi_fr := t_phi_fr t; t_psis_fr := t_psis_fr t; t_log2_stride_fr := t_log2_stride_fr t;
                        t_average_fr := t_average_fr t; t_format := t_format t |} in
  exists p0 S q p0' S' q', jtfs_scattering ux Z.sgn (with_base time) ex_input = Ok (JList p0 S) /\ In q S /\
    q_n q = [0; 0]%nat /\ nd_shape (q_coef q) = [2; 5; 0]%nat /\
    jtfs_scattering ux Z.sgn (with_base joint) ex_input = Ok (JList p0' S') /\ In q' S' /\ q_n q' = [0]%nat /\
    nd_shape (q_coef q') = [2; 5; 2; 1]%nat.
Proof.
  vm_compute. eexists _, _, _, _, _, _. split; [reflexivity|]. split; [left; reflexivity|]. split; [reflexivity|]. split; [reflexivity|].
  split; [reflexivity|]. split; [left; reflexivity|]. split; reflexivity.
Qed.
Print Assumptions C63_unpadding_refuted.
