(** The paths returned by a TimeFrequencyScattering call, signal by signal: what is computed from each signal of a batch. *)
From Coq Require Import String Reals ZArith QArith List Bool Arith Lia.
From Coquelicot Require Import Complex.
From Verif Require Import Base BaseProofs NdArray Backend Core1d Utils1d Utils1dProofs Frontend1d Frontend1dProofs NdProofs StackProofs Rows1d FrontRows Mats
  Factory1d FactoryProofs ComplexOps FilterBank1d FilterBank1dProofs Construct1d Shape1d PropFilters1d PropShapes1d Dft Conv1d Value1d Tabulated1d PropNumerics1d
  Jtfs JtfsFront JtfsProofs JtfsKeys JtfsRows JtfsFmt JtfsFull JtfsConstruct JtfsMeta JtfsTotal PropJtfs JtfsReady JtfsRun SpecJtfsValue JtfsValue JtfsCoef PropJtfsValues.
Import ListNotations.
Local Open Scope nat_scope.
Local Open Scope res_scope.

(** A part of the output: its labels, the shape it has for one signal ([d_pre] then [d_len]) and its rows, computed from
    one signal. *)
Record part := mk_part { d_q : jpath unit; d_pre : list nat; d_len : nat; d_gen : list C -> list (list C) }.
Definition part_dflt : part := mk_part (mk_jpath tt [] [] 0%Z (PInt 1) 0%Z 0 0%Z 0) [] 0 (fun _ => []).
Definition d_suf (d : part) : list nat := d_pre d ++ [d_len d].
Definition part_ok (n : nat) (d : part) : Prop :=
  forall row, List.length row = n -> List.length (d_gen d row) = prod (d_pre d) /\ Forall (fun z => List.length z = d_len d) (d_gen d row).
Definition coef_of (batch : list nat) (rows : list (list C)) (d : part) : nd C :=
  of_rows Real (batch ++ d_pre d) (d_len d) (concat (map (d_gen d) rows)).
Definition path_of (batch : list nat) (rows : list (list C)) (d : part) : jpath (nd C) := set_coef (coef_of batch rows d) (d_q d).

Lemma coef_shape batch rows d : nd_shape (coef_of batch rows d) = batch ++ d_suf d.
Proof. unfold coef_of, d_suf. cbn [of_rows nd_shape]. now rewrite app_assoc. Qed.
Lemma coef_rows n batch rows d : part_ok n d -> rows_ok batch n rows -> rows_ok (batch ++ d_pre d) (d_len d) (concat (map (d_gen d) rows)).
Proof.
  intros Hd [R1 R2]. rewrite Forall_forall in R2. split.
  - rewrite prod_app, (concat_len (prod (d_pre d))), map_length, R1; [reflexivity|].
    apply Forall_map, Forall_forall. intros row Hr. now apply Hd, R2.
  - apply Forall_concat, Forall_map, Forall_forall. intros row Hr. now apply Hd, R2.
Qed.
Lemma coef_wf n batch rows d : part_ok n d -> rows_ok batch n rows -> nd_wf (coef_of batch rows d).
Proof. intros Hd Hr. apply of_rows_wf. eapply coef_rows; eassumption. Qed.
Lemma coef_signal n batch rows d i : part_ok n d -> rows_ok batch n rows -> i < prod batch ->
  signal (prod (d_suf d)) i (coef_of batch rows d) = concat (d_gen d (nth i rows [])).
Proof.
  intros Hd [R1 R2] Hi. rewrite Forall_forall in R2. unfold signal, coef_of. cbn [of_rows nd_data].
  assert (E : concat (concat (map (d_gen d) rows)) = concat (map (fun row => concat (d_gen d row)) rows)).
  { clear. induction rows as [|r rows IH]; [reflexivity|]. cbn [map concat]. now rewrite concat_app, IH. }
  rewrite E, firstn_skipn_concat.
  - rewrite (nth_map_any _ _ _ _ []) by lia. reflexivity.
  - apply Forall_map, Forall_forall. intros row Hr. destruct (Hd row (R2 row Hr)) as [D1 D2].
    rewrite (concat_len (d_len d)) by exact D2. unfold d_suf. rewrite prod_app, D1. cbn. lia.
Qed.
Lemma coef_batch batch batch' rows d : nd_data (coef_of batch' rows d) = nd_data (coef_of batch rows d).
Proof. reflexivity. Qed.
Lemma coef_single n batch rows d i : part_ok n d -> rows_ok batch n rows -> i < prod batch ->
  nd_data (coef_of [] [nth i rows []] d) = signal (prod (d_suf d)) i (coef_of batch rows d).
Proof. intros Hd Hr Hi. rewrite (coef_signal n) by assumption. unfold coef_of. cbn [of_rows nd_data map concat]. now rewrite app_nil_r. Qed.

(** Cutting a list into blocks. *)
Lemma skipn_add {A} a b (l : list A) : skipn (a + b) l = skipn b (skipn a l).
Proof. revert l. induction a as [|a IH]; intros l; [reflexivity|]. destruct l; [now rewrite !skipn_nil|]. apply IH. Qed.
Lemma firstn_add {A} a b (l : list A) : firstn (a + b) l = firstn a l ++ firstn b (skipn a l).
Proof. revert l. induction a as [|a IH]; intros l; [reflexivity|]. destruct l; [now rewrite !firstn_nil|]. cbn. now rewrite IH. Qed.
Lemma blocks_eq {A} L k : forall (d d' : list A),
  (forall c, c < k -> firstn L (skipn (c * L) d) = firstn L (skipn (c * L) d')) -> firstn (k * L) d = firstn (k * L) d'.
Proof.
  induction k as [|k IH]; intros d d' H; [reflexivity|]. cbn [Nat.mul]. rewrite !firstn_add. f_equal; [apply (H 0); lia|].
  apply IH. intros c Hc. rewrite <- !skipn_add. replace (L + c * L) with (S c * L) by ring. apply H. lia.
Qed.
Lemma sample_eq {A} L k i (d d' : list A) : List.length d' = k * L ->
  (forall c, c < k -> firstn L (skipn ((i * k + c) * L) d) = firstn L (skipn (c * L) d')) -> firstn (k * L) (skipn (i * (k * L)) d) = d'.
Proof.
  intros Hl H. rewrite (blocks_eq L k _ d'); [rewrite <- Hl; apply firstn_all|]. intros c Hc. rewrite <- skipn_add.
  replace (i * (k * L) + c * L) with ((i * k + c) * L) by ring. now apply H.
Qed.

(** ** The parts of a call *)
Section Parts.
Variables (t : jtfs (nd C) R) (n l r mx : nat) (ls : Z) (a : avg) (Nfr : nat) (lsf : Z) (af : avg).
Hypothesis (Hr : jready sgnR t n l r mx ls a Nfr lsf af).
Notation ents := (entries complex_ops sgnR t n l r ls a Nfr lsf af).
Notation jm := (jmat complex_ops t n l r ls a lsf af).

Definition part0 : part := mk_part (mk_jpath tt [] [] 0%Z (PInt 1) 0%Z 0 0%Z 0) [] (zeroth_len n l r ls a) (fun row => [zeroth complex_ops t n l r ls a row]).
Definition parts (e : entry) : list part :=
  if String.eqb (t_format t) "joint" then
    [mk_part (joint_q lsf af e) [jrows t lsf af e] (tcut_len n l ls a (joint_q lsf af e) (jcols ls a e))
       (fun row => map (tcut n l ls a (joint_q lsf af e)) (jm e row))]
  else map (fun i => mk_part (time_q lsf af e i) [] (tcut_len n l ls a (time_q lsf af e i) (jcols ls a e))
                       (fun row => [tcut n l ls a (time_q lsf af e i) (nth i (jm e row) [])])) (seq 0 (nlabels lsf af (e_q e))).

Lemma out_parts batch rows e : out_paths complex_ops t n l r ls a lsf af batch rows e = map (path_of batch rows) (parts e).
Proof.
  unfold out_paths, parts. destruct (String.eqb (t_format t) "joint"); [reflexivity|]. rewrite map_map. apply map_ext. intros i.
  unfold path_of, coef_of. cbn [d_q d_pre d_len d_gen]. rewrite app_nil_r. do 2 f_equal.
  clear. induction rows as [|x rows IH]; [reflexivity|]. cbn [map concat app]. now rewrite IH.
Qed.
Lemma out_part0 batch rows : of_rows Real batch (zeroth_len n l r ls a) (map (zeroth complex_ops t n l r ls a) rows) = coef_of batch rows part0.
Proof.
  unfold coef_of. cbn [part0 d_pre d_len d_gen]. rewrite app_nil_r. f_equal.
  clear. induction rows as [|x rows IH]; [reflexivity|]. cbn [map concat app]. now rewrite IH.
Qed.
Lemma part0_ok : part_ok n part0.
Proof.
  intros row _. cbn [part0 d_gen d_pre d_len]. split; [reflexivity|]. constructor; [|constructor]. unfold zeroth, zeroth_len. destruct a; [|reflexivity|].
  - rewrite slice_length, (r_low_length complex_ops complex_ops_ok). reflexivity.
  - rewrite slice_length, pad_row_length. reflexivity.
Qed.
Lemma parts_ok e : In e ents -> t_format t = "joint"%string \/ t_format t = "time"%string -> Forall (part_ok n) (parts e).
Proof.
  intros He Hf. pose proof (fun row => jmat_ok complex_ops complex_ops_ok sgnR t _ _ _ _ _ _ _ _ _ Hr e row He) as Hok.
  unfold parts. destruct Hf as [Hf|Hf]; rewrite Hf; cbn [String.eqb Ascii.eqb Bool.eqb].
  - constructor; [|constructor]. intros row _. cbn [d_gen d_pre d_len]. destruct (Hok row) as [O1 O2]. split; [rewrite map_length, O1; cbn; lia|].
    apply Forall_map. eapply Forall_impl; [|exact O2]. intros z Hz. unfold tcut, tcut_len. destruct a; rewrite ?slice_length, Hz; reflexivity.
  - apply Forall_map, Forall_forall. intros i Hi. apply in_seq in Hi. intros row _. cbn [d_gen d_pre d_len]. split; [reflexivity|].
    constructor; [|constructor]. destruct (Hok row) as [O1 O2]. rewrite Forall_forall in O2.
    enough (E : List.length (nth i (jm e row) []) = jcols ls a e) by (unfold tcut, tcut_len; destruct a; rewrite ?slice_length, E; reflexivity).
    apply O2, nth_In. rewrite O1.
    pose proof (entries_labels complex_ops complex_ops_ok sgnR t _ _ _ _ _ _ _ _ _ Hr e He) as HL.
    pose proof (entries_fmt complex_ops complex_ops_ok sgnR t _ _ _ _ _ _ _ _ _ Hr e He) as HF.
    pose proof (fo_s _ _ _ _ _ _ _ _ _ _ HF) as Hs. pose proof (fo_max _ _ _ _ _ _ _ _ _ _ HF) as Hm.
    unfold jrows, ulen, joint_array. rewrite Hf. cbn [String.eqb Ascii.eqb Bool.eqb]. rewrite andb_false_r.
    unfold nlabels in *. set (s := estride lsf af (e_q e)) in *. set (m := q_n1_max (e_q e)) in *.
    assert ((m + s - 1) / s <= 1 + m / s)%Z.
    { replace (1 + m / s)%Z with ((m + 1 * s) / s)%Z by (rewrite Z.div_add by lia; lia). apply Z.div_le_mono; lia. }
    assert (0 <= m / s)%Z by (apply Z.div_pos; lia). lia.
Qed.
Definition all_parts : list part := flat_map parts ents.
Lemma all_parts_ok : t_format t = "joint"%string \/ t_format t = "time"%string -> Forall (part_ok n) all_parts.
Proof.
  intros Hf. apply Forall_forall. intros d Hd. apply in_flat_map in Hd as (e & He & Hd). pose proof (parts_ok e He Hf) as H. rewrite Forall_forall in H. now apply H.
Qed.
Lemma run_parts batch rows : rows_ok batch n rows -> jcheck_runtime_args t = Ok tt ->
  jpaths np sgnR t (of_rows Real batch n rows) = Ok (mk_path (coef_of batch rows part0) [] [], map (path_of batch rows) all_parts).
Proof.
  intros R Hchk. rewrite (jpaths_rows complex_ops complex_ops_ok sgnR t _ _ _ _ _ _ _ _ _ Hr batch rows R Hchk), out_part0. do 2 f_equal.
  unfold all_parts. induction ents as [|e L IH]; [reflexivity|]. cbn [flat_map]. now rewrite map_app, out_parts, IH.
Qed.
Lemma parts_suf d : In d all_parts -> List.length (d_suf d) = if String.eqb (t_format t) "joint" then 2 else 1.
Proof.
  intros Hd. apply in_flat_map in Hd as (e & _ & Hd). unfold parts in Hd. destruct (String.eqb (t_format t) "joint").
  - destruct Hd as [<-|[]]. reflexivity.
  - apply in_map_iff in Hd as (i & <- & _). reflexivity.
Qed.
End Parts.

(** ** Stacking *)
Lemma stack_parts_inv batch rows ds dim y k : Forall (fun d => List.length (d_suf d) = k) ds -> dim = (- Z.of_nat (1 + k))%Z ->
  stack (map (coef_of batch rows) ds) dim = Ok y -> ds <> [] /\ exists suf, Forall (fun d => d_suf d = suf) ds.
Proof.
  intros Hk Hd E. destruct ds as [|d0 ds]; [discriminate|]. split; [discriminate|]. exists (d_suf d0).
  unfold stack in E. cbn [map] in E. cbv zeta in E.
  match type of E with (if ?b then _ else _) = _ => destruct b; [discriminate|] end.
  unfold stack_at in E. destruct (Nat.ltb _ _) in E; [discriminate|].
  match type of E with (if ?b then _ else _) = _ => destruct b eqn:EF; [clear E|discriminate] end.
  rewrite forallb_forall in EF. apply Forall_forall. intros d Hin.
  specialize (EF (coef_of batch rows d)). rewrite !coef_shape in EF. destruct (list_eq_dec _ _ _) as [Eq|]; [now apply app_inv_head in Eq|].
  discriminate EF. change (In (coef_of batch rows d) (map (coef_of batch rows) (d0 :: ds))). now apply in_map.
Qed.
Lemma stack_parts n batch rows ds suf dim : Forall (part_ok n) ds -> rows_ok batch n rows -> ds <> [] -> Forall (fun d => d_suf d = suf) ds ->
  dim = (- Z.of_nat (1 + List.length suf))%Z ->
  exists y, stack (map (coef_of batch rows) ds) dim = Ok y /\ nd_wf y /\ nd_shape y = batch ++ List.length ds :: suf /\
    forall i, i < prod batch -> signal (List.length ds * prod suf) i y = concat (map (fun d => concat (d_gen d (nth i rows []))) ds).
Proof.
  intros Hok R Hne Hsuf Hd. rewrite Forall_forall in Hok, Hsuf.
  set (L := map (coef_of batch rows) ds). assert (HL : L <> []) by (unfold L; destruct ds; [congruence|discriminate]).
  assert (HS : forall x, In x L -> nd_wf x /\ nd_shape x = batch ++ suf).
  { intros x Hx. apply in_map_iff in Hx as (d & <- & Hin). split; [eapply coef_wf; [now apply Hok|exact R]|]. now rewrite coef_shape, Hsuf. }
  rewrite (stack_axis L batch suf dim HL (or_introl Hd)) by (intros x Hx; now apply HS).
  destruct (stack_at_blocks L batch suf HL HS) as (y & E & W & S & V). exists y. split; [exact E|]. split; [exact W|].
  assert (EL : List.length L = List.length ds) by apply map_length. rewrite EL in *. split; [exact S|].
  intros i Hi. set (k := List.length ds) in *. set (p := prod suf) in *.
  assert (HG : Forall (fun z => List.length z = p) (map (fun d => concat (d_gen d (nth i rows []))) ds)).
  { apply Forall_map, Forall_forall. intros d Hin. rewrite <- (coef_signal n batch rows d i (Hok d Hin) R Hi). rewrite (Hsuf d Hin). unfold signal.
    rewrite firstn_length, skipn_length. pose proof (coef_wf _ _ _ _ (Hok d Hin) R) as Wd. unfold nd_wf in Wd. rewrite Wd, coef_shape, prod_app, (Hsuf d Hin). fold p. nia. }
  unfold signal. apply sample_eq.
  - rewrite (concat_len p) by exact HG. now rewrite map_length.
  - intros c Hc. rewrite firstn_skipn_concat by exact HG. rewrite (nth_map_any _ _ _ _ part_dflt) by exact Hc.
    set (d := nth c ds part_dflt). assert (Hin : In d ds) by (apply nth_In; exact Hc).
    rewrite <- (coef_signal n batch rows d i (Hok d Hin) R Hi), (Hsuf d Hin). fold p.
    specialize (V i c Hi Hc (coef_of batch rows part_dflt)). unfold block in V. rewrite V. unfold L. now rewrite map_nth.
Qed.
