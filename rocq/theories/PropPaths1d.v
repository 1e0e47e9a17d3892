(** Properties C16-C20 and C23: paths, output types, metadata of Scattering1D, for every backend. *)
From Coq Require Import String ZArith QArith List Bool Lia Permutation.
From Verif Require Import Base BaseProofs NdArray Backend Core1d Utils1d Frontend1d Spec1d
  Core1dProofs Frontend1dProofs Example1d.
Import ListNotations.
Local Open Scope Z_scope.

(** C16.  [expected_keys] (Spec1d.v): the empty key, all [n1] in increasing order, then the pairs
    [n1; n2] with j2 > j1 in lexicographic order. *)
Theorem C16_path_set_and_order : forall X W P (be : backend X W) (s : scat1d W P) (x : X) l,
  1 <= s_max_order s <= 2 ->
  scattering be s x = Ok (OutList l) ->
  map p_n l = expected_keys (Z.to_nat (s_max_order s)) (map f_j (s_psi1 s)) (map f_j (s_psi2 s)) /\
  NoDup (map p_n l) /\
  (forall n1 n2, In [n1; n2] (map p_n l) <->
     s_max_order s = 2 /\ exists f1 f2, nth_error (s_psi1 s) n1 = Some f1 /\
       nth_error (s_psi2 s) n2 = Some f2 /\ f_j f1 < f_j f2) /\
  (forall p, In p l ->
     Forall2 (fun j (nf : nat * list (filter W P)) =>
                exists f, nth_error (snd nf) (fst nf) = Some f /\ f_j f = j)
             (p_j p) (combine (p_n p) [s_psi1 s; s_psi2 s])).
Proof.
  intros X W P be s x l Hm H. apply scattering_list_inv in H. destruct H as (S & HS & ->).
  pose proof (paths_sorted_keys be s x S Hm HS) as E.
  split; [exact E|]. split; [rewrite E; apply expected_NoDup|]. split.
  - intros n1 n2. rewrite E, In_expected_2. unfold j1s, j2s. rewrite <- (Z2Nat.id (s_max_order s)) at 2 by lia.
    split.
    + intros (H2 & a & b & Ha & Hb & Hab). split; [lia|]. rewrite nth_error_map in Ha, Hb.
      destruct (nth_error (s_psi1 s) n1) as [f1|]; [|discriminate].
      destruct (nth_error (s_psi2 s) n2) as [f2|]; [|discriminate].
      cbn in Ha, Hb. exists f1, f2. repeat split. congruence.
    + intros (H2 & f1 & f2 & Ha & Hb & Hab). split; [lia|]. exists (f_j f1), (f_j f2).
      rewrite !nth_error_map, Ha, Hb. auto.
  - intros p Hp. apply (paths_scales be s x S p Hm HS).
    eapply Permutation_in; [apply map_sort_paths|exact Hp].
Qed.
Print Assumptions C16_path_set_and_order.
Example C16_instance : exists l, scattering ux (ex_scat "list" 2 TNone SNone) ex_input = Ok (OutList l) /\
  map p_n l = [[]; [0]; [1]; [2]; [0; 1]; [0; 2]; [1; 1]; [1; 2]; [2; 2]]%nat.
Proof. vm_compute. eexists. split; reflexivity. Qed.

(** C17.  The three output types. *)
Theorem C17_output_types_agree : forall X W P (be : backend X W) (s : scat1d W P) (x : X) l,
  1 <= s_max_order s <= 2 ->
  scattering be (with_out s "list") x = Ok (OutList l) ->
  (exists d, scattering be (with_out s "dict") x = Ok (OutDict d) /\
     Permutation (map fst d) (map p_n l) /\ NoDup (map fst d) /\
     forall k c, dict_lookup k d = Some c <-> exists p, In p l /\ p_n p = k /\ p_coef p = c) /\
  (s_average s <> Ok NoAvg ->
   scattering be (with_out s "array") x =
     match be_stack be (map p_coef l) (-2) with Ok y => Ok (OutArray y) | Err e => Err e end).
Proof.
  intros X W P be s x l Hm H.
  pose proof (scattering_list_inv be _ x l H) as (S & HS & ->). rewrite paths_with_out in HS.
  rewrite scattering_paths in H. inv_bind H. inv_bind H. clear H.
  destruct v. apply check_runtime_args_ok in E. destruct E as (_ & a & Ea & _).
  change (s_average (with_out s "list")) with (s_average s) in Ea.
  split.
  - exists (map (fun p => (p_n p, p_coef p)) S).
    pose proof (paths_NoDup be s x S Hm HS) as ND.
    assert (Ek : map fst (map (fun p => (p_n p, p_coef p)) S) = map p_n S) by (rewrite map_map; reflexivity).
    split; [|split; [|split]].
    + rewrite scattering_paths. replace (check_runtime_args (with_out s "dict")) with (Ok tt).
      2:{ symmetry. apply check_runtime_args_ok. split; [right; left; reflexivity|].
          exists a. split; [exact Ea|]. intros [_ K]. discriminate. }
      cbn [bind]. rewrite E0. cbn [bind]. rewrite paths_with_out, HS. cbn [bind].
      unfold format_out. cbn [s_out_type with_out String.eqb Ascii.eqb Bool.eqb].
      rewrite dict_fold by exact ND. reflexivity.
    + rewrite Ek. apply Permutation_map. symmetry. apply map_sort_paths.
    + rewrite Ek. exact ND.
    + intros k c. rewrite <- dict_lookup_In by (rewrite Ek; exact ND). rewrite in_map_iff. split.
      * intros (p & Ep & Hp). exists p. injection Ep; intros; subst. repeat split.
        eapply Permutation_in; [symmetry; apply map_sort_paths|exact Hp].
      * intros (p & Hp & <- & <-). exists p. split; [reflexivity|].
        eapply Permutation_in; [apply map_sort_paths|exact Hp].
  - intros Hna. rewrite scattering_paths. replace (check_runtime_args (with_out s "array")) with (Ok tt).
    2:{ symmetry. apply check_runtime_args_ok. split; [left; reflexivity|].
        exists a. split; [exact Ea|]. intros [K _]. subst a. congruence. }
    cbn [bind]. rewrite E0. cbn [bind]. rewrite paths_with_out, HS. cbn [bind].
    unfold format_out. cbn [s_out_type with_out String.eqb Ascii.eqb Bool.eqb].
    destruct (be_stack be _ _); reflexivity.
Qed.
Print Assumptions C17_output_types_agree.
Example C17_instance : exists l d y, scattering ux (ex_scat "list" 2 TNone SNone) ex_input = Ok (OutList l) /\
  scattering ux (ex_scat "dict" 2 TNone SNone) ex_input = Ok (OutDict d) /\
  scattering ux (ex_scat "array" 2 TNone SNone) ex_input = Ok (OutArray y) /\
  nd_shape y = [2; 5; 9; 1]%nat.
Proof. vm_compute. do 3 eexists. repeat split. Qed.

(** C18 (alignment part; that meta() always returns is refuted in PropFilters1d.v). *)
Theorem C18_meta_alignment_partial : forall X W P (be : backend X W) (s : scat1d W P) (x : X) l m,
  1 <= s_max_order s <= 2 ->
  scattering be s x = Ok (OutList l) -> meta s = Ok m ->
  m_key m = map p_n l /\
  m_order m = map (fun k => List.length k) (m_key m) /\
  forall k p, nth_error l k = Some p ->
    let pad {A} (vals : list (option A)) :=
      vals ++ repeat None (Z.to_nat (s_max_order s) - List.length (p_n p))%nat in
    let wavelets := map (fun nf : nat * list (filter W P) => nth_error (snd nf) (fst nf))
                        (combine (p_n p) [s_psi1 s; s_psi2 s]) in
    Forall (fun w => w <> None) wavelets /\
    nth_error (m_n m) k = Some (pad (map Some (p_n p))) /\
    nth_error (m_j m) k = Some (pad (map Some (p_j p))) /\
    nth_error (m_j m) k = Some (pad (map (option_map f_j) wavelets)) /\
    nth_error (m_xi m) k = Some (pad (map (option_map f_xi) wavelets)) /\
    nth_error (m_sigma m) k = Some (pad (map (option_map f_sigma) wavelets)).
Proof.
  intros X W P be s x l m Hm H Hmeta.
  pose proof (C16_path_set_and_order X W P be s x l Hm H) as (Ek & _ & _ & Hsc).
  pose proof (meta_keys s m Hm Hmeta) as Em.
  assert (Ekm : m_key m = map p_n l) by (rewrite Em, Ek; reflexivity).
  split; [exact Ekm|].
  apply meta_inv in Hmeta. destruct Hmeta as (ls & gen & _ & _ & _ & Eo & En & Exi & Esi & Ej).
  split; [exact Eo|].
  intros k p Hp pad wavelets.
  assert (Hkey : nth_error (m_key m) k = Some (p_n p)) by (rewrite Ekm, nth_error_map, Hp; reflexivity).
  assert (Hin : In (p_n p) (expected_keys (Z.to_nat (s_max_order s)) (map f_j (s_psi1 s)) (map f_j (s_psi2 s))))
    by (rewrite <- Ek; apply in_map; eapply nth_error_In; exact Hp).
  pose proof (Hsc p (nth_error_In _ _ Hp)) as Hw.
  assert (Hlen : (List.length (p_n p) <= Z.to_nat (s_max_order s))%nat).
  { destruct (In_expected_length _ _ _ _ Hin) as [E|[(a & E)|(a & b & E)]]; rewrite E in *; cbn; try lia.
    apply In_expected_2 in Hin. lia. }
  assert (Hjw : map Some (p_j p) = map (option_map f_j) wavelets).
  { unfold wavelets. rewrite map_map. clear - Hw. induction Hw as [|j nf js l (f & E1 & E2) F IH]; [reflexivity|].
    cbn [map]. rewrite IH, E1. cbn. now rewrite E2. }
  assert (Hrow : forall B (get : filter W P -> B),
     meta_row get (psis_of s) (meta_n_row (s_max_order s) (p_n p)) = pad _ (map (option_map get) wavelets)).
  { intros B get. apply nth_error_ext. intros i.
    destruct (nth_error (meta_n_row (s_max_order s) (p_n p)) i) as [cn|] eqn:Ei.
    - rewrite (meta_row_nth get _ _ _ _ Ei). unfold meta_n_row in Ei.
      unfold pad, wavelets. clear - Ei Hm Hin Hlen.
      destruct (psis_of_cases s Hm) as [[E1 E2]|[E1 E2]]; rewrite E1 in *; rewrite E2; clear E1 E2 Hm;
        destruct (In_expected_length _ _ _ _ Hin) as [E|[(a & E)|(a & b & E)]];
        rewrite E in *; clear Hin E; try (cbn in Hlen; lia);
        destruct i as [|[|[|i]]]; vm_compute in Ei; try discriminate; injection Ei; intros <-; reflexivity.
    - replace (nth_error (meta_row get (psis_of s) (meta_n_row (s_max_order s) (p_n p))) i) with (@None (option B)).
      + symmetry. apply nth_error_None. apply nth_error_None in Ei. rewrite meta_n_row_length in Ei.
        unfold pad, wavelets. rewrite app_length, !map_length, combine_length, repeat_length.
        cbn [List.length]. lia.
      + symmetry. apply nth_error_None. rewrite meta_row_length. now apply nth_error_None in Ei. }
  assert (Hn : nth_error (m_n m) k = Some (meta_n_row (s_max_order s) (p_n p)))
    by (rewrite En, nth_error_map, Hkey; reflexivity).
  split; [|split; [|split; [|split; [|split]]]].
  - unfold wavelets. clear - Hw. induction Hw as [|j nf js l (f & E1 & E2) F IH]; cbn [map]; constructor.
    + congruence.
    + exact IH.
  - rewrite Hn. unfold meta_n_row, pad. do 4 f_equal. lia.
  - rewrite Ej, nth_error_map, Hn. cbn [option_map]. rewrite Hrow. now rewrite Hjw.
  - rewrite Ej, nth_error_map, Hn. cbn [option_map]. now rewrite Hrow.
  - rewrite Exi, nth_error_map, Hn. cbn [option_map]. now rewrite Hrow.
  - rewrite Esi, nth_error_map, Hn. cbn [option_map]. now rewrite Hrow.
Qed.
Print Assumptions C18_meta_alignment_partial.
Example C18_instance : exists m, meta (ex_scat "list" 2 TNone SNone) = Ok m /\
  m_j m = [[None; None]; [Some 0; None]; [Some 0; None]; [Some 1; None];
           [Some 0; Some 1]; [Some 0; Some 2]; [Some 0; Some 1]; [Some 0; Some 2]; [Some 1; Some 2]].
Proof. vm_compute. eexists. split; reflexivity. Qed.

(** C19.  [keys2] enumerates the pairs with j1 < j2 (Spec1d.v). *)
Theorem C19_output_size_counts : forall X W P (be : backend X W) (s : scat1d W P) (x : X) l k,
  1 <= s_max_order s <= 2 ->
  scattering be s x = Ok (OutList l) -> output_size s = Ok k ->
  k = List.length l /\
  let c1 := List.length (s_psi1 s) in
  let c2 := if s_max_order s =? 2 then List.length (keys2 (map f_j (s_psi1 s)) (map f_j (s_psi2 s))) else 0%nat in
  k = (1 + c1 + c2)%nat /\
  output_size_detail s = Ok (List.filter (fun c => negb (Nat.eqb c 0)) [1; c1; c2]%nat).
Proof.
  intros X W P be s x l k Hm H Hk. unfold output_size in Hk. inv_bind Hk. injection Hk; intros <-.
  rename v into m. pose proof (C16_path_set_and_order X W P be s x l Hm H) as (Ek & _).
  pose proof (meta_keys s m Hm E) as Em. cbn zeta.
  assert (L : List.length (m_key m) = List.length l).
  { rewrite Em. change (map f_j (s_psi1 s)) with (j1s s) in Ek. change (map f_j (s_psi2 s)) with (j2s s) in Ek.
    rewrite <- Ek. apply map_length. }
  split; [exact L|].
  assert (C : map (@List.length nat) (m_key m) = ([0] ++ repeat 1 (List.length (s_psi1 s)) ++
      repeat 2 (if (s_max_order s =? 2)%Z then List.length (keys2 (map f_j (s_psi1 s)) (map f_j (s_psi2 s))) else 0))%nat).
  { rewrite Em, orders_counts. unfold j1s, j2s. rewrite map_length. repeat f_equal.
    destruct (psis_of_cases s Hm) as [[E1 _]|[E1 _]]; rewrite E1; reflexivity. }
  split.
  - rewrite <- (map_length (@List.length nat)), C, !app_length, !repeat_length. cbn. lia.
  - unfold output_size_detail. rewrite E. cbn [bind]. apply meta_inv in E.
    destruct E as (ls & gen & _ & _ & _ & Eo & _). rewrite Eo, C, counter_orders. f_equal.
    cbn [List.filter Nat.eqb negb app].
    destruct (Nat.eqb (List.length (s_psi1 s)) 0); destruct (Nat.eqb _ 0); reflexivity.
Qed.
Print Assumptions C19_output_size_counts.
Example C19_instance : output_size (ex_scat "list" 2 TNone SNone) = Ok 9%nat /\
  output_size_detail (ex_scat "list" 2 TNone SNone) = Ok [1; 3; 5]%nat.
Proof. vm_compute. auto. Qed.

(** C20. *)
Theorem C20_max_order_prefix : forall X W P (be : backend X W) (s : scat1d W P) (x : X) l2,
  scattering be (with_order s 2) x = Ok (OutList l2) ->
  exists rest, scattering be (with_order s 1) x =
    Ok (OutList (firstn (1 + List.length (s_psi1 s)) l2)) /\
    l2 = firstn (1 + List.length (s_psi1 s)) l2 ++ rest /\
    Forall (fun p => List.length (p_n p) = 2%nat) rest.
Proof.
  intros X W P be s x l2 H. pose proof H as H0. apply scattering_list_inv in H. destruct H as (S & HS & ->).
  pose proof (paths_order1 be s x S HS) as H1.
  assert (Hm : 1 <= s_max_order (with_order s 2) <= 2) by (cbn; lia).
  pose proof (paths_NoDup be _ x S Hm HS) as ND.
  pose proof (paths_sorted_keys be _ x S Hm HS) as E.
  set (n := List.length (s_psi1 s)) in *.
  set (L := sort_paths S) in *.
  assert (EL : L = firstn (1 + n) L ++ skipn (1 + n) L) by (symmetry; apply firstn_skipn).
  assert (Kl : List.length (keys1 (j1s (with_order s 2))) = n).
  { unfold keys1, j1s. rewrite map_length, seq_length, map_length. reflexivity. }
  assert (Kf : map p_n (firstn (1 + n) L) = keys0 ++ keys1 (j1s (with_order s 2))).
  { rewrite <- firstn_map, E. unfold expected_keys. rewrite app_assoc, firstn_app.
    replace (1 + n - _)%nat with 0%nat.
    - rewrite firstn_O, app_nil_r. apply firstn_all2. rewrite app_length, Kl. cbn. lia.
    - rewrite app_length, Kl. cbn. lia. }
  assert (Ks : map p_n (skipn (1 + n) L) = keys2 (j1s (with_order s 2)) (j2s (with_order s 2))).
  { apply (app_inv_head (map p_n (firstn (1 + n) L))). rewrite <- map_app, firstn_skipn, Kf, E.
    unfold expected_keys. cbn [s_max_order with_order Z.to_nat Pos.to_nat Pos.iter_op Nat.leb Nat.add].
    now rewrite app_assoc. }
  assert (Fs : Forall (fun p => List.length (p_n p) = 2%nat) (skipn (1 + n) L)).
  { rewrite <- (Forall_map p_n (fun k => List.length k = 2%nat)). rewrite Ks.
    apply Forall_forall. intros k Hk. unfold keys2 in Hk. apply in_flat_map in Hk.
    destruct Hk as (a & _ & Hk). apply in_map_iff in Hk. destruct Hk as (b & <- & _). reflexivity. }
  assert (Fl : List.filter (fun p : path X => Nat.leb (List.length (p_n p)) 1) L = firstn (1 + n) L).
  { rewrite EL at 1. rewrite filter_app. rewrite filter_all, filter_none, app_nil_r; [reflexivity| |].
    - intros p Hp. rewrite Forall_forall in Fs. now rewrite (Fs p Hp).
    - intros p Hp. apply (in_map p_n) in Hp. rewrite Kf in Hp. unfold keys0, keys1 in Hp.
      destruct Hp as [<-|Hp]; [reflexivity|]. apply in_map_iff in Hp. destruct Hp as (a & <- & _). reflexivity. }
  exists (skipn (1 + n) L). split; [|split; [exact EL|exact Fs]].
  rewrite scattering_paths in H0. inv_bind H0. inv_bind H0. inv_bind H0.
  rewrite scattering_paths. change (check_runtime_args (with_order s 1)) with (check_runtime_args (with_order s 2)).
  rewrite E0. cbn [bind]. rewrite E1. cbn [bind]. rewrite H1. cbn [bind].
  change (s_out_type (with_order s 1)) with (s_out_type (with_order s 2)).
  assert (v1 = S) by congruence. subst v1.
  unfold format_out in *. destruct (String.eqb (s_out_type (with_order s 2)) "dict"); [discriminate|].
  destruct (String.eqb (s_out_type (with_order s 2)) "array"); [inv_bind H0; discriminate|].
  f_equal. f_equal. rewrite sort_filter by exact ND. exact Fl.
Qed.
Print Assumptions C20_max_order_prefix.
Example C20_instance : exists l, scattering ux (with_order (ex_scat "list" 0 TNone SNone) 2) ex_input = Ok (OutList l)
  /\ List.length l = 9%nat.
Proof. vm_compute. eexists. split; reflexivity. Qed.

(** C23. *)
Theorem C23_runtime_checks : forall X W P (be : backend X W) (s : scat1d W P) (x : X),
  (forall a, s_average s = Ok a ->
     (In (s_out_type s) ["array"; "dict"; "list"]%string /\ ~ (a = NoAvg /\ s_out_type s = "array"%string)
      -> check_runtime_args s = Ok tt) /\
     (~ In (s_out_type s) ["array"; "dict"; "list"]%string \/ (a = NoAvg /\ s_out_type s = "array"%string)
      -> scattering be s x = Err ValueError)) /\
  (check_runtime_args s = Ok tt -> be_shape be x = [] -> scattering be s x = Err ValueError) /\
  (be_shape be x <> [] -> check_input (be_shape be x) = Ok tt).
Proof.
  intros X W P be s x. split; [|split].
  - intros a Ea. split.
    + intros [H1 H2]. apply check_runtime_args_ok. eauto.
    + intros H. rewrite scattering_paths.
      assert (E : check_runtime_args s = Err ValueError).
      { destruct (check_runtime_args s) as [[]|e] eqn:E.
        - apply check_runtime_args_ok in E. destruct E as (H1 & a' & E & H2). exfalso.
          destruct H as [H|H]; [exact (H H1)|]. apply H2. congruence.
        - unfold check_runtime_args in E. destruct (existsb _ _); [|congruence].
          rewrite Ea in E. cbn [bind] in E. unfold raise_if in E. destruct (_ && _)%bool; congruence. }
      rewrite E. reflexivity.
  - intros H1 H2. rewrite scattering_paths, H1, H2. reflexivity.
  - intros H. unfold check_input. destruct (be_shape be x); [congruence|]. reflexivity.
Qed.
Print Assumptions C23_runtime_checks.
Example C23_instance : scattering ux (ex_scat "tensor" 2 TNone SNone) ex_input = Err ValueError /\
  scattering ux (ex_scat "array" 2 (TNum (0 # 1)) SNone) ex_input = Err ValueError /\
  exists l, scattering ux (ex_scat "list" 2 (TNum (0 # 1)) SNone) ex_input = Ok (OutList l).
Proof. vm_compute. repeat split. eexists. reflexivity. Qed.
