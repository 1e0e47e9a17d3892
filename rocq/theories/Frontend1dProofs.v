(** Lemmas about the frontend of Scattering1D, for an arbitrary backend. *)
From Coq Require Import String ZArith List Bool Lia Permutation Sorted Arith.
From Verif Require Import Base BaseProofs NdArray Backend Core1d Utils1d Frontend1d Spec1d Core1dProofs.
Import ListNotations.
Local Open Scope res_scope.

Definition with_out {W P} (s : scat1d W P) (t : string) : scat1d W P := {|
  s_phi := s_phi s; s_psi1 := s_psi1 s; s_psi2 := s_psi2 s; s_max_order := s_max_order s;
  s_out_type := t; s_oversampling := s_oversampling s; s_pad_left := s_pad_left s;
  s_pad_right := s_pad_right s; s_ind_start := s_ind_start s; s_ind_end := s_ind_end s;
  s_log2_stride := s_log2_stride s; s_average := s_average s |}.
Definition with_order {W P} (s : scat1d W P) (m : Z) : scat1d W P := {|
  s_phi := s_phi s; s_psi1 := s_psi1 s; s_psi2 := s_psi2 s; s_max_order := m;
  s_out_type := s_out_type s; s_oversampling := s_oversampling s; s_pad_left := s_pad_left s;
  s_pad_right := s_pad_right s; s_ind_start := s_ind_start s; s_ind_end := s_ind_end s;
  s_log2_stride := s_log2_stride s; s_average := s_average s |}.

Definition j1s {W P} (s : scat1d W P) : list Z := map f_j (s_psi1 s).
Definition j2s {W P} (s : scat1d W P) : list Z := map f_j (s_psi2 s).

Section F.
Context {X W P : Type} (be : backend X W).

(** The computation shared by the three output types: everything before the final formatting. *)
Definition paths (s : scat1d W P) (x : X) : res (list (path X)) :=
  '(batch_shape, n) <- split_last (be_shape be x) ;;
  x <- be_reshape_input be x [n] ;;
  U_0 <- be_pad be x (s_pad_left s) (s_pad_right s) ;;
  log2_stride <- s_log2_stride s ;;
  a <- s_average s ;;
  gen <- scattering1d be U_0 (s_phi s) (psis_of s) log2_stride
           (match a with Local => true | _ => false end) ;;
  mapM (finish_path be s a batch_shape) gen.

Definition sort_paths (S : list (path X)) := isort (fun p q => key_leb (p_n p) (p_n q)) S.

Definition format_out (t : string) (S : list (path X)) : res (output X) :=
  if String.eqb t "dict" then Ok (OutDict (fold_left (fun d p => dict_set (p_n p) (p_coef p) d) S []))
  else if String.eqb t "array" then arr <- be_stack be (map p_coef (sort_paths S)) (-2) ;; Ok (OutArray arr)
  else Ok (OutList (sort_paths S)).

Lemma bind_assoc {A B C} (m : res A) (f : A -> res B) (g : B -> res C) :
  bind (bind m f) g = bind m (fun a => bind (f a) g).
Proof. destruct m; reflexivity. Qed.
Lemma bind_ext {A B} (m : res A) (f g : A -> res B) : (forall a, f a = g a) -> bind m f = bind m g.
Proof. intros H. destruct m; cbn; auto. Qed.

Lemma scattering_paths (s : scat1d W P) x :
  scattering be s x =
  (_ <- check_runtime_args s ;; _ <- check_input (be_shape be x) ;;
   S <- paths s x ;; format_out (s_out_type s) S).
Proof.
  unfold scattering, paths, format_out, sort_paths.
  apply bind_ext; intros _. apply bind_ext; intros _.
  destruct (split_last (be_shape be x)) as [[b n]|e]; cbn [bind]; [|reflexivity].
  rewrite !bind_assoc. apply bind_ext; intros x'.
  rewrite !bind_assoc. apply bind_ext; intros U0.
  rewrite !bind_assoc. apply bind_ext; intros ls.
  rewrite !bind_assoc. apply bind_ext; intros a.
  rewrite !bind_assoc. apply bind_ext; intros gen. apply bind_ext; intros S. reflexivity.
Qed.

Lemma finish_path_keys (s : scat1d W P) a b p q :
  finish_path be s a b p = Ok q -> p_n q = p_n p /\ p_j q = p_j p.
Proof.
  unfold finish_path. intros H. inv_bind H. inv_bind H. inv_bind H. injection H; intros <-. auto.
Qed.

Lemma finish_all_keys (s : scat1d W P) a b gen S :
  mapM (finish_path be s a b) gen = Ok S -> map p_n S = map p_n gen /\ map p_j S = map p_j gen.
Proof.
  intros H. apply mapM_ok in H. induction H as [|p q gen S Hp F [IH1 IH2]]; [auto|].
  apply finish_path_keys in Hp. destruct Hp as [E1 E2]. cbn [map]. now rewrite E1, E2, IH1, IH2.
Qed.

Lemma paths_inv (s : scat1d W P) x S : paths s x = Ok S ->
  exists b n x' U0 ls a gen,
    split_last (be_shape be x) = Ok (b, n) /\ be_reshape_input be x [n] = Ok x' /\
    be_pad be x' (s_pad_left s) (s_pad_right s) = Ok U0 /\
    s_log2_stride s = Ok ls /\ s_average s = Ok a /\
    scattering1d be U0 (s_phi s) (psis_of s) ls (match a with Local => true | _ => false end) = Ok gen /\
    mapM (finish_path be s a b) gen = Ok S.
Proof.
  unfold paths. intros H. inv_bind H. destruct v as [b n].
  inv_bind H. inv_bind H. inv_bind H. inv_bind H. inv_bind H.
  exists b, n, v, v0, v1, v2, v3. repeat split; assumption.
Qed.

Lemma psis_of_cases (s : scat1d W P) : (1 <= s_max_order s <= 2)%Z ->
  (s_max_order s = 1%Z /\ psis_of s = [s_psi1 s]) \/
  (s_max_order s = 2%Z /\ psis_of s = [s_psi1 s; s_psi2 s]).
Proof.
  intros H. assert (s_max_order s = 1%Z \/ s_max_order s = 2%Z) as [E|E] by lia;
    unfold psis_of; rewrite E; cbn; auto.
Qed.

Lemma paths_keys_perm (s : scat1d W P) x S : (1 <= s_max_order s <= 2)%Z -> paths s x = Ok S ->
  Permutation (map p_n S) (expected_keys (Z.to_nat (s_max_order s)) (j1s s) (j2s s)).
Proof.
  intros Hm H. apply paths_inv in H.
  destruct H as (b & n & x' & U0 & ls & a & gen & _ & _ & _ & _ & _ & Hg & HS).
  apply finish_all_keys in HS. destruct HS as [-> _].
  destruct (psis_of_cases s Hm) as [[E1 E2]|[E1 E2]]; rewrite E2 in Hg; rewrite E1;
    apply scattering1d_keys in Hg; rewrite Hg; cbn [nth_error option_map].
  - rewrite gen_keys_none. reflexivity.
  - apply gen_keys_perm.
Qed.

Lemma paths_sorted_keys (s : scat1d W P) x S : (1 <= s_max_order s <= 2)%Z -> paths s x = Ok S ->
  map p_n (sort_paths S) = expected_keys (Z.to_nat (s_max_order s)) (j1s s) (j2s s).
Proof.
  intros Hm H. unfold sort_paths. apply (isort_by_key p_n).
  - now apply paths_keys_perm with (x := x).
  - apply klt_le_sorted, expected_sorted.
Qed.

Lemma paths_scales (s : scat1d W P) x S p : (1 <= s_max_order s <= 2)%Z -> paths s x = Ok S -> In p S ->
  Forall2 (fun j (nf : nat * list (filter W P)) =>
             exists f, nth_error (snd nf) (fst nf) = Some f /\ f_j f = j)
          (p_j p) (combine (p_n p) [s_psi1 s; s_psi2 s]).
Proof.
  intros Hm H Hp. apply paths_inv in H.
  destruct H as (b & n & x' & U0 & ls & a & gen & _ & _ & _ & _ & _ & Hg & HS).
  apply mapM_ok in HS. destruct (Forall2_In_r _ _ _ _ HS Hp) as (q & Hq & Eq).
  apply finish_path_keys in Eq. destruct Eq as [-> ->].
  destruct (psis_of_cases s Hm) as [[E1 E2]|[E1 E2]]; rewrite E2 in Hg;
    destruct (scattering1d_scales be U0 (s_phi s) _ _ ls _ gen q Hg Hq)
      as [(K1 & K2)|[(n1 & f1 & K1 & K2 & K3)|(n1 & n2 & f1 & f2 & psi2 & K1 & K2 & K3 & K4 & K5 & K6)]].
  all: try (rewrite K1, K2; constructor).
  all: try (rewrite K1, K3; constructor; [|constructor]; cbn; eauto).
  - discriminate.
  - cbn in K2. injection K2; intros <-. rewrite K1, K5. cbn [combine].
    repeat constructor; cbn; eauto.
Qed.

(** ** Dictionaries *)
Lemma dict_set_fresh {Y} k (v : Y) d : ~ In k (map fst d) -> dict_set k v d = d ++ [(k, v)].
Proof.
  induction d as [|[k' v'] d IH]; cbn; [reflexivity|]. intros H.
  destruct (list_eq_dec Nat.eq_dec k k') as [E|E]; [exfalso; apply H; left; congruence|].
  rewrite IH; [reflexivity|]. intros H'; apply H; right; exact H'.
Qed.
Lemma dict_fold (S : list (path X)) d :
  NoDup (map fst d ++ map p_n S) ->
  fold_left (fun d p => dict_set (p_n p) (p_coef p) d) S d = d ++ map (fun p => (p_n p, p_coef p)) S.
Proof.
  revert d. induction S as [|p S IH]; intros d H; cbn [fold_left map]; [now rewrite app_nil_r|].
  cbn [map] in H. apply NoDup_remove in H as H'. destruct H' as [H1 H2].
  rewrite dict_set_fresh by (intros K; apply H2; apply in_or_app; left; exact K).
  rewrite IH.
  - rewrite <- app_assoc. reflexivity.
  - rewrite map_app. cbn [map fst]. rewrite <- app_assoc. exact H.
Qed.
Lemma dict_lookup_In {Y} (d : list (list nat * Y)) k v : NoDup (map fst d) ->
  (In (k, v) d <-> dict_lookup k d = Some v).
Proof.
  induction d as [|[k' v'] d IH]; cbn [map fst dict_lookup]; intros H.
  - split; [intros []|discriminate].
  - inversion H as [|? ? H1 H2]; subst. destruct (list_eq_dec Nat.eq_dec k k') as [E|E].
    + subst k'. split.
      * intros [K|K]; [congruence|]. exfalso. apply H1. apply (in_map fst) in K. exact K.
      * intros K; left; congruence.
    + rewrite <- IH by assumption. split.
      * intros [K|K]; [congruence|exact K].
      * intros K; right; exact K.
Qed.

Lemma paths_NoDup (s : scat1d W P) x S : (1 <= s_max_order s <= 2)%Z -> paths s x = Ok S ->
  NoDup (map p_n S).
Proof.
  intros Hm H. eapply Permutation_NoDup; [symmetry; eapply paths_keys_perm; eassumption|].
  apply expected_NoDup.
Qed.

(** ** Runtime argument checks *)
Lemma check_runtime_args_ok (s : scat1d W P) :
  check_runtime_args s = Ok tt <->
  In (s_out_type s) ["array"; "dict"; "list"]%string /\
  exists a, s_average s = Ok a /\ ~ (a = NoAvg /\ s_out_type s = "array"%string).
Proof.
  unfold check_runtime_args.
  destruct (existsb _ _) eqn:E.
  - apply existsb_exists in E. destruct E as (t & Ht & Et). apply String.eqb_eq in Et.
    destruct (s_average s) as [a|e] eqn:Ea; cbn [bind].
    + unfold raise_if. split.
      * intros H. split; [subst t; exact Ht|]. exists a. split; [reflexivity|]. intros [-> Eq].
        rewrite Eq in H. cbn in H. discriminate.
      * intros (_ & a' & E' & H). injection E'; intros <-.
        destruct a; cbn [andb]; try reflexivity.
        destruct (String.eqb (s_out_type s) "array") eqn:Eq; [|reflexivity].
        exfalso. apply H. split; [reflexivity|]. now apply String.eqb_eq.
    + split; [discriminate|]. intros (_ & a & E & _). discriminate.
  - split; [discriminate|]. intros [H _]. exfalso.
    apply not_true_iff_false in E. apply E. apply existsb_exists. exists (s_out_type s).
    split; [exact H|]. apply String.eqb_refl.
Qed.
End F.

(** ** max_order 1 versus 2 *)
Lemma filter_perm {A} (f : A -> bool) l l' : Permutation l l' -> Permutation (List.filter f l) (List.filter f l').
Proof.
  induction 1; cbn; try reflexivity.
  - destruct (f x); [now constructor|assumption].
  - destruct (f x), (f y); try reflexivity. apply perm_swap.
  - etransitivity; eassumption.
Qed.

Lemma filter_none {A} (f : A -> bool) l : (forall x, In x l -> f x = false) -> List.filter f l = [].
Proof.
  induction l as [|x l IH]; intros H; cbn; [reflexivity|].
  rewrite (H x (or_introl eq_refl)). apply IH. intros; apply H; right; assumption.
Qed.
Lemma filter_all {A} (f : A -> bool) l : (forall x, In x l -> f x = true) -> List.filter f l = l.
Proof.
  induction l as [|x l IH]; intros H; cbn; [reflexivity|].
  rewrite (H x (or_introl eq_refl)). f_equal. apply IH. intros; apply H; right; assumption.
Qed.

Lemma sort_filter {X} (f : path X -> bool) (S : list (path X)) :
  NoDup (map p_n S) ->
  sort_paths (List.filter f S) = List.filter f (sort_paths S).
Proof.
  intros ND.
  assert (T : forall p q : path X, key_leb (p_n p) (p_n q) = true \/ key_leb (p_n q) (p_n p) = true)
    by (intros; apply key_leb_total).
  assert (TR : forall p q r : path X, key_leb (p_n p) (p_n q) = true -> key_leb (p_n q) (p_n r) = true ->
     key_leb (p_n p) (p_n r) = true) by (intros p q r; apply key_leb_trans).
  assert (Sd : forall l, StronglySorted (rle (fun p q : path X => key_leb (p_n p) (p_n q))) (sort_paths l))
    by (intros l; apply isort_sorted; assumption).
  assert (P : Permutation (sort_paths (List.filter f S)) (List.filter f (sort_paths S))).
  { unfold sort_paths. rewrite isort_perm. apply filter_perm. symmetry. apply isort_perm. }
  (* sorted lists with distinct keys and the same elements are equal *)
  assert (G : forall l1 l2 : list (path X),
     StronglySorted (rle (fun p q : path X => key_leb (p_n p) (p_n q))) l1 ->
     StronglySorted (rle (fun p q : path X => key_leb (p_n p) (p_n q))) l2 ->
     NoDup (map p_n l1) -> Permutation l1 l2 -> l1 = l2).
  { clear. intros l1 l2 S1. revert l2. induction S1 as [|p l1 S1 IH F1]; intros l2 S2 ND Pm.
    - apply Permutation_nil in Pm. now subst.
    - destruct S2 as [|q l2 S2 F2]; [symmetry in Pm; apply Permutation_nil in Pm; discriminate|].
      cbn [map] in ND. inversion ND as [|? ? N1 N2]; subst.
      assert (p = q).
      { assert (Hp : In p (q :: l2)) by (eapply Permutation_in; [exact Pm|left; reflexivity]).
        assert (Hq : In q (p :: l1)) by (eapply Permutation_in; [symmetry; exact Pm|left; reflexivity]).
        destruct Hp as [Hp|Hp]; [congruence|]. destruct Hq as [Hq|Hq]; [congruence|].
        rewrite Forall_forall in F1, F2. exfalso. apply N1.
        rewrite (key_leb_antisym _ _ (F1 q Hq) (F2 p Hp)). now apply in_map. }
      subst q. f_equal. apply IH; try assumption. eapply Permutation_cons_inv; eassumption. }
  apply G; [apply Sd| |  |exact P].
  - apply StronglySorted_filter. apply Sd.
  - eapply Permutation_NoDup.
    + apply Permutation_map. symmetry. unfold sort_paths. apply isort_perm.
    + clear - ND. induction S as [|p S IH]; cbn; [constructor|].
      cbn in ND. inversion ND as [|? ? N1 N2]; subst. destruct (f p); cbn; [|auto].
      constructor; [|auto]. intros H. apply N1. apply in_map_iff in H. destruct H as (q & E & H).
      apply filter_In in H. rewrite <- E. now apply in_map.
Qed.

Lemma mapM_filter {A B} (f : A -> res B) (pa : A -> bool) (pb : B -> bool) l r :
  (forall a b, f a = Ok b -> pa a = pb b) ->
  mapM f l = Ok r -> mapM f (List.filter pa l) = Ok (List.filter pb r).
Proof.
  intros H E. apply mapM_ok in E. apply mapM_ok.
  induction E as [|a b l r Hab E IH]; cbn; [constructor|].
  rewrite (H a b Hab). destruct (pb b); [constructor|]; assumption.
Qed.

Lemma paths_order1 {X W P} (be : backend X W) (s : scat1d W P) x S :
  paths be (with_order s 2) x = Ok S ->
  paths be (with_order s 1) x = Ok (List.filter (fun p => Nat.leb (List.length (p_n p)) 1) S).
Proof.
  intros H. apply paths_inv in H.
  destruct H as (b & n & x' & U0 & ls & a & gen & A & B & C & D & E & Hg & HS).
  unfold paths.
  change (s_pad_left (with_order s 1)) with (s_pad_left (with_order s 2)).
  change (s_pad_right (with_order s 1)) with (s_pad_right (with_order s 2)).
  change (s_log2_stride (with_order s 1)) with (s_log2_stride (with_order s 2)).
  change (s_average (with_order s 1)) with (s_average (with_order s 2)).
  rewrite A. cbn [bind]. rewrite B. cbn [bind]. rewrite C. cbn [bind]. rewrite D. cbn [bind].
  rewrite E. cbn [bind].
  change (psis_of (with_order s 2)) with [s_psi1 s; s_psi2 s] in Hg.
  change (psis_of (with_order s 1)) with [s_psi1 s].
  change (s_phi (with_order s 1)) with (s_phi (with_order s 2)).
  rewrite (scattering1d_order1_ok be U0 _ _ _ _ _ _ Hg). cbn [bind].
  refine (mapM_filter (finish_path be (with_order s 1) a b) _ _ _ _ _ HS).
  intros p q Hpq. apply finish_path_keys in Hpq. destruct Hpq as [-> _]. reflexivity.
Qed.

(** ** meta *)
Section Meta.
Context {W P B : Type}.

Lemma combine_nth_error {A C} (l1 : list A) (l2 : list C) i : List.length l1 = List.length l2 ->
  nth_error (combine l1 l2) i =
  match nth_error l1 i, nth_error l2 i with Some a, Some c => Some (a, c) | _, _ => None end.
Proof.
  revert l2 i. induction l1 as [|a l1 IH]; intros [|c l2] [|i] H; cbn in *; try reflexivity; try discriminate.
  apply IH. lia.
Qed.

Lemma set_column_length o n (v : B) nrow row : List.length nrow = List.length row ->
  List.length (set_column o n v nrow row) = List.length nrow.
Proof.
  intros H. unfold set_column. rewrite map_length. unfold enumerate. rewrite enum_from_length.
  rewrite combine_length. lia.
Qed.

Lemma set_column_nth o n (v : B) nrow row i cn c : List.length nrow = List.length row ->
  nth_error nrow i = Some cn -> nth_error row i = Some c ->
  nth_error (set_column o n v nrow row) i =
  Some (if Nat.eqb i o then match cn with Some m => if Nat.eqb m n then Some v else c | None => c end else c).
Proof.
  intros HL Hn Hc. unfold set_column. rewrite nth_error_map. unfold enumerate.
  rewrite enum_from_nth, combine_nth_error by assumption. rewrite Hn, Hc. reflexivity.
Qed.

Lemma inner_fold_nth (get : filter W P -> B) o nrow fb : forall start row i cn c,
  List.length nrow = List.length row -> nth_error nrow i = Some cn -> nth_error row i = Some c ->
  let row' := fold_left (fun row (npsi : nat * filter W P) =>
                 set_column o (fst npsi) (get (snd npsi)) nrow row) (enum_from start fb) row in
  List.length nrow = List.length row' /\
  nth_error row' i = Some (if Nat.eqb i o then
      match cn with
      | Some m => if Nat.leb start m then match nth_error fb (m - start) with
                                          | Some f => Some (get f) | None => c end else c
      | None => c end else c).
Proof.
  induction fb as [|f fb IH]; intros start row i cn c HL Hn Hc; cbn [enum_from fold_left].
  - split; [assumption|]. rewrite Hc. destruct (Nat.eqb i o); [|reflexivity].
    destruct cn as [m|]; [|reflexivity]. destruct (Nat.leb start m); [|reflexivity].
    destruct (m - start); reflexivity.
  - cbn [fst snd].
    pose proof (set_column_nth o start (get f) nrow row i cn c HL Hn Hc) as E.
    pose proof (set_column_length o start (get f) nrow row HL) as L.
    specialize (IH (S start) _ i cn _ (eq_sym L) Hn E). cbn zeta in IH. destruct IH as [IH1 IH2].
    split; [exact IH1|]. rewrite IH2. f_equal.
    destruct (Nat.eqb i o); [|reflexivity]. destruct cn as [m|]; [|reflexivity].
    destruct (Nat.leb (S start) m) eqn:E1.
    + apply Nat.leb_le in E1. destruct (Nat.leb start m) eqn:E2; [|apply Nat.leb_gt in E2; lia].
      replace (m - start) with (S (m - S start)) by lia. cbn [nth_error].
      destruct (Nat.eqb m start) eqn:E3; [apply Nat.eqb_eq in E3; lia|]. reflexivity.
    + apply Nat.leb_gt in E1. destruct (Nat.leb start m) eqn:E2.
      * apply Nat.leb_le in E2. assert (m = start) by lia. subst m. rewrite Nat.eqb_refl, Nat.sub_diag.
        reflexivity.
      * apply Nat.leb_gt in E2. destruct (Nat.eqb m start) eqn:E3; [apply Nat.eqb_eq in E3; lia|]. reflexivity.
Qed.

Lemma outer_fold_nth (get : filter W P -> B) nrow fbs : forall start row i cn c,
  List.length nrow = List.length row -> nth_error nrow i = Some cn -> nth_error row i = Some c ->
  let row' := fold_left (fun row (of : nat * list (filter W P)) =>
      fold_left (fun row (npsi : nat * filter W P) =>
          set_column (fst of) (fst npsi) (get (snd npsi)) nrow row)
        (enumerate (snd of)) row) (enum_from start fbs) row in
  List.length nrow = List.length row' /\
  nth_error row' i = Some (
      match cn with
      | Some m => if Nat.leb start i then
           match nth_error fbs (i - start) with
           | Some fb => match nth_error fb m with Some f => Some (get f) | None => c end
           | None => c end else c
      | None => c end).
Proof.
  induction fbs as [|fb fbs IH]; intros start row i cn c HL Hn Hc; cbn [enum_from fold_left].
  - split; [assumption|]. rewrite Hc. destruct cn as [m|]; [|reflexivity].
    destruct (Nat.leb start i); [|reflexivity]. destruct (i - start); reflexivity.
  - cbn [fst snd].
    destruct (inner_fold_nth get start nrow fb 0 row i cn c HL Hn Hc) as [L E].
    unfold enumerate in *. fold (@enumerate (filter W P)) in *.
    specialize (IH (S start) _ i cn _ L Hn E). cbn zeta in IH. destruct IH as [IH1 IH2].
    split; [exact IH1|]. rewrite IH2. f_equal. destruct cn as [m|]; [|destruct (Nat.eqb i start); reflexivity].
    change (Nat.leb 0 m) with true. cbv iota. rewrite Nat.sub_0_r.
    destruct (Nat.leb (S start) i) eqn:E1.
    + apply Nat.leb_le in E1. destruct (Nat.leb start i) eqn:E2; [|apply Nat.leb_gt in E2; lia].
      replace (i - start) with (S (i - S start)) by lia. cbn [nth_error].
      destruct (Nat.eqb i start) eqn:E3; [apply Nat.eqb_eq in E3; lia|]. reflexivity.
    + apply Nat.leb_gt in E1. destruct (Nat.leb start i) eqn:E2.
      * apply Nat.leb_le in E2. assert (i = start) by lia. subst i. rewrite Nat.eqb_refl, Nat.sub_diag.
        reflexivity.
      * apply Nat.leb_gt in E2. destruct (Nat.eqb i start) eqn:E3; [apply Nat.eqb_eq in E3; lia|]. reflexivity.
Qed.

Lemma meta_row_nth (get : filter W P -> B) fbs nrow i cn : nth_error nrow i = Some cn ->
  nth_error (meta_row get fbs nrow) i =
  Some (match cn with
        | Some m => match nth_error fbs i with
                    | Some fb => option_map get (nth_error fb m)
                    | None => None end
        | None => None end).
Proof.
  intros Hn. unfold meta_row.
  destruct (outer_fold_nth get nrow fbs 0 (map (fun _ => None) nrow) i cn None) as [_ E].
  - now rewrite map_length.
  - exact Hn.
  - rewrite nth_error_map, Hn. reflexivity.
  - etransitivity; [exact E|]. cbn [Nat.leb]. rewrite Nat.sub_0_r.
    destruct cn as [m|]; [|reflexivity]. destruct (nth_error fbs i) as [fb|]; [|reflexivity].
    destruct (nth_error fb m); reflexivity.
Qed.
Lemma meta_row_length (get : filter W P -> B) fbs nrow : List.length (meta_row get fbs nrow) = List.length nrow.
Proof.
  destruct nrow as [|c nrow].
  - unfold meta_row. cbn [map]. generalize (enumerate fbs). intros l.
    assert (G : forall row : list (option B), row = [] ->
      List.length (fold_left (fun row (of : nat * list (filter W P)) =>
       fold_left (fun row (npsi : nat * filter W P) =>
          set_column (fst of) (fst npsi) (get (snd npsi)) [] row)
        (enumerate (snd of)) row) l row) = 0).
    { induction l as [|a l IH]; intros row ->; cbn [fold_left]; [reflexivity|]. apply IH.
      generalize (enumerate (snd a)). intros l'. induction l' as [|b l' IH']; cbn; [reflexivity|exact IH']. }
    now apply G.
  - unfold meta_row. destruct (outer_fold_nth get (c :: nrow) fbs 0 (map (fun _ => None) (c :: nrow)) 0 c None)
      as [E _]; [now rewrite map_length|reflexivity|reflexivity|]. symmetry. exact E.
Qed.
End Meta.

Lemma meta_inv {W P} (s : scat1d W P) m : meta s = Ok m ->
  exists ls gen, s_log2_stride s = Ok ls /\
    scattering1d (dry_backend W) tt (s_phi s) (psis_of s) ls false = Ok gen /\
    m_key m = map p_n (isort (fun p q => key_leb (p_n p) (p_n q)) gen) /\
    m_order m = map (@List.length nat) (m_key m) /\
    m_n m = map (meta_n_row (s_max_order s)) (m_key m) /\
    m_xi m = map (meta_row f_xi (psis_of s)) (m_n m) /\
    m_sigma m = map (meta_row f_sigma (psis_of s)) (m_n m) /\
    m_j m = map (meta_row f_j (psis_of s)) (m_n m).
Proof.
  unfold meta. intros H. inv_bind H. inv_bind H. injection H; intros <-.
  exists v, v0. cbn [m_key m_order m_n m_xi m_sigma m_j]. repeat split; assumption.
Qed.

Lemma meta_keys {W P} (s : scat1d W P) m : (1 <= s_max_order s <= 2)%Z -> meta s = Ok m ->
  m_key m = expected_keys (Z.to_nat (s_max_order s)) (j1s s) (j2s s).
Proof.
  intros Hm H. apply meta_inv in H. destruct H as (ls & gen & _ & Hg & -> & _).
  apply (isort_by_key p_n); [|apply klt_le_sorted, expected_sorted].
  destruct (psis_of_cases s Hm) as [[E1 E2]|[E1 E2]]; rewrite E2 in Hg; rewrite E1;
    apply scattering1d_keys in Hg; rewrite Hg; cbn [nth_error option_map].
  - rewrite gen_keys_none. reflexivity.
  - apply gen_keys_perm.
Qed.

(** ** Counter *)
Lemma counter_add_last v k c : (forall p, In p c -> fst p <> v) ->
  counter_add v (c ++ [(v, k)]) = c ++ [(v, S k)].
Proof.
  induction c as [|[y m] c IH]; cbn; intros H.
  - now rewrite Nat.eqb_refl.
  - destruct (Nat.eqb v y) eqn:E; [apply Nat.eqb_eq in E; exfalso; apply (H (y, m)); auto|].
    rewrite IH; [reflexivity|]. intros; apply H; auto.
Qed.
Lemma counter_add_new v c : (forall p, In p c -> fst p <> v) -> counter_add v c = c ++ [(v, 1)].
Proof.
  induction c as [|[y m] c IH]; cbn; intros H; [reflexivity|].
  destruct (Nat.eqb v y) eqn:E; [apply Nat.eqb_eq in E; exfalso; apply (H (y, m)); auto|].
  rewrite IH; [reflexivity|]. intros; apply H; auto.
Qed.
Lemma counter_repeat v n c : (forall p, In p c -> fst p <> v) ->
  fold_left (fun c x => counter_add x c) (repeat v n) c = if Nat.eqb n 0 then c else c ++ [(v, n)].
Proof.
  intros H. destruct n as [|n]; [reflexivity|]. cbn [repeat fold_left Nat.eqb].
  rewrite counter_add_new by assumption.
  assert (G : forall n k, fold_left (fun c x => counter_add x c) (repeat v n) (c ++ [(v, k)]) = c ++ [(v, k + n)]).
  { clear n. induction n as [|n IH]; intros k; cbn [repeat fold_left]; [now rewrite Nat.add_0_r|].
    rewrite counter_add_last by assumption. rewrite (IH (S k)). replace (k + S n) with (S k + n) by lia. reflexivity. }
  exact (G n 1).
Qed.

Lemma scattering_list_inv {X W P} (be : backend X W) (s : scat1d W P) x l :
  scattering be s x = Ok (OutList l) -> exists S, paths be s x = Ok S /\ l = sort_paths S.
Proof.
  rewrite scattering_paths. intros H. inv_bind H. inv_bind H. inv_bind H. exists v1. split; [assumption|].
  unfold format_out in H. destruct (String.eqb (s_out_type s) "dict"); [discriminate|].
  destruct (String.eqb (s_out_type s) "array"); [inv_bind H; discriminate|]. congruence.
Qed.
Lemma scattering_dict_inv {X W P} (be : backend X W) (s : scat1d W P) x d :
  (1 <= s_max_order s <= 2)%Z ->
  scattering be s x = Ok (OutDict d) -> exists S, paths be s x = Ok S /\
     d = map (fun p => (p_n p, p_coef p)) S.
Proof.
  intros Hm. rewrite scattering_paths. intros H. inv_bind H. inv_bind H. inv_bind H.
  exists v1. split; [assumption|].
  unfold format_out in H. destruct (String.eqb (s_out_type s) "dict").
  - injection H; intros <-. rewrite dict_fold; [reflexivity|]. cbn [map app].
    now apply paths_NoDup with (be := be) (s := s) (x := x).
  - destruct (String.eqb (s_out_type s) "array"); [inv_bind H; discriminate|]. congruence.
Qed.

Lemma paths_with_out {X W P} (be : backend X W) (s : scat1d W P) t x :
  paths be (with_out s t) x = paths be s x.
Proof. reflexivity. Qed.

Lemma map_sort_paths {X} (S : list (path X)) : Permutation (sort_paths S) S.
Proof. apply isort_perm. Qed.

Lemma meta_n_row_length mo n : List.length (meta_n_row mo n) =
  Z.to_nat (Z.max mo (Z.of_nat (List.length n))).
Proof. unfold meta_n_row. rewrite app_length, map_length, repeat_length. lia. Qed.

Lemma orders_counts mo l1 l2 :
  map (@List.length nat) (expected_keys mo l1 l2) =
  [0] ++ repeat 1 (List.length l1) ++ repeat 2 (if Nat.leb 2 mo then List.length (keys2 l1 l2) else 0).
Proof.
  unfold expected_keys, keys0. rewrite !map_app. f_equal. f_equal.
  - unfold keys1. rewrite map_map. cbn [List.length]. assert (G : forall n k, map (fun _ : nat => 1) (seq k n) = repeat 1 n).
    { induction n as [|n IH]; intros k; cbn [seq map repeat]; [reflexivity|]. now rewrite IH. }
    apply G.
  - destruct (Nat.leb 2 mo); [|reflexivity].
    assert (F : Forall (fun k => List.length k = 2) (keys2 l1 l2)).
    { apply Forall_forall. intros k Hk. unfold keys2 in Hk. apply in_flat_map in Hk.
      destruct Hk as (a & _ & Hk). apply in_map_iff in Hk. destruct Hk as (b & <- & _). reflexivity. }
    induction F as [|k l E F IH]; cbn [map repeat List.length]; [reflexivity|]. now rewrite E, IH.
Qed.

Lemma counter_orders a b :
  map snd (counter ([0] ++ repeat 1 a ++ repeat 2 b)) =
  [1] ++ (if Nat.eqb a 0 then [] else [a]) ++ (if Nat.eqb b 0 then [] else [b]).
Proof.
  unfold counter. rewrite !fold_left_app. cbn [fold_left counter_add].
  rewrite (counter_repeat 1 a) by (cbn; intros p [<-|[]]; cbn; lia).
  destruct (Nat.eqb a 0).
  - rewrite (counter_repeat 2 b) by (cbn; intros p [<-|[]]; cbn; lia).
    destruct (Nat.eqb b 0); reflexivity.
  - rewrite (counter_repeat 2 b) by (cbn; intros p [<-|[<-|[]]]; cbn; lia).
    destruct (Nat.eqb b 0); reflexivity.
Qed.
