(** Facts on paths and on the creation of directories (Caching.v). *)
From Coq Require Import Ascii String List Bool Arith Lia.
From Verif Require Import Caching.
Import ListNotations.
Local Open Scope list_scope.

Lemma str_eqb_eq a b : str_eqb a b = true <-> a = b.
Proof. unfold str_eqb. destruct (list_eq_dec ascii_dec a b); split; congruence. Qed.
Lemma str_eqb_neq a b : str_eqb a b = false <-> a <> b.
Proof. unfold str_eqb. destruct (list_eq_dec ascii_dec a b); split; congruence. Qed.
Lemma is_slash_eq c : is_slash c = true <-> c = slash.
Proof. unfold is_slash. apply Ascii.eqb_eq. Qed.

(** * Lists *)
Lemma drop_while_suffix {A} (f : A -> bool) l : exists p, l = p ++ drop_while f l /\ forallb f p = true.
Proof.
  induction l as [|a l (p & E & Hp)]; [now exists []|]. cbn. destruct (f a) eqn:Ef; [|now exists []].
  exists (a :: p). cbn. rewrite Ef, Hp. split; [now f_equal|reflexivity].
Qed.
Lemma drop_while_head {A} (f : A -> bool) l a r : drop_while f l = a :: r -> f a = false.
Proof. induction l as [|b l IH]; cbn; [discriminate|]. destruct (f b) eqn:Ef; [exact IH|]. intros E. injection E as -> ->. exact Ef. Qed.
Lemma take_drop_while {A} (f : A -> bool) l : take_while f l ++ drop_while f l = l.
Proof. induction l as [|a l IH]; cbn; [reflexivity|]. destruct (f a); cbn; [now rewrite IH|reflexivity]. Qed.
Lemma take_while_all {A} (f : A -> bool) p a r : forallb f p = true -> f a = false -> take_while f (p ++ a :: r) = p /\ drop_while f (p ++ a :: r) = a :: r.
Proof.
  intros Hp Ha. induction p as [|b p IH]; cbn; [now rewrite Ha|]. cbn in Hp. apply andb_prop in Hp. destruct Hp as [Hb Hp].
  rewrite Hb. destruct (IH Hp) as [-> ->]. split; reflexivity.
Qed.
Lemma take_while_whole {A} (f : A -> bool) p : forallb f p = true -> take_while f p = p /\ drop_while f p = [].
Proof. intros Hp. induction p as [|b p IH]; cbn; [now split|]. cbn in Hp. apply andb_prop in Hp. destruct Hp as [Hb Hp]. rewrite Hb. destruct (IH Hp) as [-> ->]. now split. Qed.
Lemma forallb_rev {A} (f : A -> bool) l : forallb f (rev l) = forallb f l.
Proof.
  induction l as [|a l IH]; cbn; [reflexivity|]. rewrite forallb_app, IH. cbn. rewrite andb_true_r. apply andb_comm.
Qed.

(** * Growth of the file system *)
Definition extends (s s' : fs) : Prop :=
  fs_cwd s' = fs_cwd s /\ fs_may_create s' = fs_may_create s /\
  (forall q k, fs_entry s q = Some k -> fs_entry s' q = Some k) /\
  (forall q k, fs_entry s q = None -> fs_entry s' q = Some k -> k = Dir /\ fs_may_create s q = true).

Lemma extends_refl s : extends s s.
Proof. repeat split; auto; congruence. Qed.
Lemma extends_trans s s' s'' : extends s s' -> extends s' s'' -> extends s s''.
Proof.
  intros (A1 & A2 & A3 & A4) (B1 & B2 & B3 & B4). split; [congruence|]. split; [congruence|]. split; [auto|].
  intros q k Hn Hk. destruct (fs_entry s' q) as [k'|] eqn:E.
  - pose proof (B3 _ _ E) as E'. rewrite Hk in E'. injection E' as ->. now apply A4.
  - rewrite <- A2. now apply B4.
Qed.
Lemma add_dir_entry s q q' : fs_entry (add_dir s q) q' = if list_eq_dec (list_eq_dec ascii_dec) q' q then Some Dir else fs_entry s q'.
Proof. reflexivity. Qed.
Lemma add_dir_extends s q : fs_entry s q = None -> fs_may_create s q = true -> extends s (add_dir s q).
Proof.
  intros Hn Hm. split; [reflexivity|]. split; [reflexivity|]. split.
  - intros q' k Hk. rewrite add_dir_entry. destruct (list_eq_dec (list_eq_dec ascii_dec) q' q) as [->|_]; [congruence|exact Hk].
  - intros q' k Hk. rewrite add_dir_entry. destruct (list_eq_dec (list_eq_dec ascii_dec) q' q) as [->|_]; [intros E; injection E as <-; auto|congruence].
Qed.
Lemma is_dir_eq s q : is_dir s q = true <-> fs_entry s q = Some Dir.
Proof. unfold is_dir. destruct (fs_entry s q) as [[]|]; split; congruence. Qed.
Lemma is_dir_extends s s' q : extends s s' -> is_dir s q = true -> is_dir s' q = true.
Proof. rewrite !is_dir_eq. intros H. apply H. Qed.
Lemma walk_extends s s' cs : extends s s' -> forall q d, walk s q cs = Some d -> walk s' q cs = Some d.
Proof.
  intros He. induction cs as [|c cs IH]; cbn; intros q d H; [exact H|]. destruct (is_dir s q) eqn:E; [|discriminate].
  rewrite (is_dir_extends _ _ _ He E). now apply IH.
Qed.
Lemma walk_app s cs cs' : forall q, walk s q (cs ++ cs') = match walk s q cs with Some d => walk s d cs' | None => None end.
Proof. induction cs as [|c cs IH]; cbn; intros q; [reflexivity|]. destruct (is_dir s q); [apply IH|reflexivity]. Qed.
Lemma walk_stay s q cs : is_dir s q = true -> forallb (fun c => str_eqb c []) cs = true -> walk s q cs = Some q.
Proof.
  intros Hd. induction cs as [|c cs IH]; cbn; [reflexivity|]. intros H. apply andb_prop in H. destruct H as [Hc H]. rewrite Hd. apply str_eqb_eq in Hc. subst c. now apply IH.
Qed.
Lemma start_extends s s' p : extends s s' -> start s' p = start s p.
Proof. intros (H & _). unfold start. now rewrite H. Qed.
Lemma entry_extends s s' p k : extends s s' -> entry_at s p = Some k -> entry_at s' p = Some k.
Proof.
  intros He. unfold entry_at, resolve. destruct p as [|c p]; [discriminate|]. rewrite (start_extends _ _ _ He).
  destruct (walk s _ _) as [q|] eqn:E; [|discriminate]. rewrite (walk_extends _ _ _ He _ _ E). apply He.
Qed.

Lemma mkdir_extends s p s' err : mkdir s p = (s', err) -> extends s s'.
Proof.
  unfold mkdir. destruct p as [|c0 p]; [intros E; injection E as <- <-; apply extends_refl|].
  destruct (drop_while _ _) as [|c r]; [intros E; injection E as <- <-; apply extends_refl|].
  destruct (walk _ _ _) as [d|]; [|intros E; injection E as <- <-; apply extends_refl].
  destruct (negb _); [intros E; injection E as <- <-; apply extends_refl|]. destruct (_ || _); [intros E; injection E as <- <-; apply extends_refl|].
  destruct (fs_entry s (c :: d)) eqn:En; [intros E; injection E as <- <-; apply extends_refl|].
  destruct (fs_may_create s (c :: d)) eqn:Em; intros E; injection E as <- <-; [now apply add_dir_extends|apply extends_refl].
Qed.
Lemma mkdir_created s p s' : mkdir s p = (s', None) -> entry_at s' p = Some Dir.
Proof.
  intros H. pose proof (mkdir_extends _ _ _ _ H) as He. revert H. unfold mkdir, entry_at, resolve. destruct p as [|c0 p]; [discriminate|]. set (pp := c0 :: p) in *.
  destruct (drop_while_suffix (fun c => str_eqb c []) (rev (components pp))) as (es & Ees & Hes).
  destruct (drop_while _ _) as [|c r] eqn:Ed; [discriminate|]. pose proof (drop_while_head _ _ _ _ Ed) as Hc.
  destruct (walk s _ _) as [d|] eqn:Ew; [|discriminate]. destruct (is_dir s d) eqn:Hd; [|discriminate]. cbn [negb].
  destruct (_ || _) eqn:Hdots; [discriminate|]. apply orb_false_elim in Hdots. destruct Hdots as [D1 D2].
  destruct (fs_entry s (c :: d)) eqn:En; [discriminate|]. destruct (fs_may_create s (c :: d)) eqn:Em; [|discriminate]. intros E. injection E as <-.
  rewrite (start_extends _ _ _ He). replace (components pp) with (rev r ++ c :: rev es) by (rewrite <- (rev_involutive (components pp)), Ees, rev_app_distr; cbn; now rewrite <- app_assoc).
  rewrite walk_app, (walk_extends _ _ _ He _ _ Ew). cbn [walk]. rewrite (is_dir_extends _ _ _ He Hd). unfold step. rewrite Hc, D1, D2. cbn [orb].
  assert (Hnew : is_dir (add_dir s (c :: d)) (c :: d) = true) by (apply is_dir_eq; rewrite add_dir_entry; now destruct (list_eq_dec (list_eq_dec ascii_dec) _ _)).
  rewrite walk_stay; [now apply is_dir_eq|exact Hnew|now rewrite forallb_rev].
Qed.
Lemma makedirs_extends n : forall s p s' err, makedirs n s p = (s', err) -> extends s s'.
Proof.
  induction n as [|n IH]; intros s p s' err; cbn [makedirs]; [intros E; injection E as <- <-; apply extends_refl|].
  destruct (split p) as [h0 t0]. destruct (match t0 with [] => split h0 | _ => (h0, t0) end) as [h t].
  destruct (_ && _ && _); [|apply mkdir_extends]. destruct (makedirs n s h) as [s1 [[]|]] eqn:E1; pose proof (IH _ _ _ _ E1) as H1.
  - destruct (str_eqb t dot); [intros E; injection E as <- <-; exact H1|]. intros E. exact (extends_trans _ _ _ H1 (mkdir_extends _ _ _ _ E)).
  - intros E. injection E as <- <-. exact H1.
  - destruct (str_eqb t dot); [intros E; injection E as <- <-; exact H1|]. intros E. exact (extends_trans _ _ _ H1 (mkdir_extends _ _ _ _ E)).
Qed.

(** * The last component *)
Lemma split_eq p : let '(h, t) := split p in exists raw, p = raw ++ t /\ (raw = [] \/ exists r, raw = r ++ [slash]) /\ h = (if forallb is_slash raw then raw else rstrip_slash raw).
Proof.
  unfold split. set (raw := rev (drop_while (fun c => negb (is_slash c)) (rev p))). exists raw. split.
  - unfold raw. rewrite <- rev_app_distr, take_drop_while. now rewrite rev_involutive.
  - split; [|reflexivity]. unfold raw. destruct (drop_while _ _) as [|c r] eqn:E; [now left|]. right. exists (rev r). cbn.
    apply drop_while_head in E. apply negb_false_iff, is_slash_eq in E. now subst c.
Qed.
Lemma rstrip_app p c : is_slash c = false -> rstrip_slash (p ++ [c]) = p ++ [c].
Proof. intros H. unfold rstrip_slash. rewrite rev_app_distr. cbn. rewrite H. cbn. now rewrite rev_involutive. Qed.
Lemma rstrip_slashes p q : forallb is_slash q = true -> rstrip_slash (p ++ q) = rstrip_slash p.
Proof.
  intros H. unfold rstrip_slash. rewrite rev_app_distr. f_equal. rewrite <- forallb_rev in H. induction (rev q) as [|c r IH]; [reflexivity|]. cbn in *.
  apply andb_prop in H. destruct H as [-> H]. now apply IH.
Qed.
(** The path, without trailing slashes, ends in a dot. *)
Definition ends_in_dot (p : str) : Prop := exists q, rstrip_slash p = q ++ dot.
Lemma tail_dot p h0 t0 h t : split p = (h0, t0) -> (match t0 with [] => split h0 | _ => (h0, t0) end) = (h, t) -> t = dot -> ends_in_dot p.
Proof.
  intros E0 E1 ->. pose proof (split_eq p) as Hs. rewrite E0 in Hs. destruct Hs as (raw & Ep & Hr & Eh).
  destruct t0 as [|a t0].
  - pose proof (split_eq h0) as Hs. rewrite E1 in Hs. destruct Hs as (raw' & Ep' & _ & _). rewrite app_nil_r in Ep. subst raw.
    destruct (forallb is_slash p) eqn:Ef.
    + subst h0. rewrite Ep' in Ef. rewrite forallb_app in Ef. cbn in Ef. now rewrite andb_false_r in Ef.
    + exists raw'. now rewrite <- Eh.
  - injection E1 as -> -> ->. exists raw. rewrite Ep. now apply rstrip_app.
Qed.
Lemma makedirs_created n s p s' : makedirs n s p = (s', None) -> ~ ends_in_dot p -> entry_at s' p = Some Dir.
Proof.
  destruct n as [|n]; cbn [makedirs]; [discriminate|]. intros H Hnd. destruct (split p) as [h0 t0] eqn:E0.
  destruct (match t0 with [] => split h0 | _ => (h0, t0) end) as [h t] eqn:E1.
  assert (Ht : str_eqb t dot = false) by (apply str_eqb_neq; intros Et; apply Hnd; eapply tail_dot; eauto).
  rewrite Ht in H. destruct (_ && _ && _); [|now apply mkdir_created in H].
  destruct (makedirs n s h) as [s1 [[]|]]; [|discriminate|]; now apply mkdir_created in H.
Qed.

(** * Plain paths *)
Definition plain (c : str) : Prop := c <> [] /\ c <> dot /\ c <> dotdot /\ ~ In slash c.
(** c1/c2/.../cn, after a slash if the path is absolute. *)
Fixpoint slashed (cs : list str) : str := match cs with [] => [] | [c] => c | c :: r => c ++ slash :: slashed r end.
Definition show (absolute : bool) (cs : list str) : str := (if absolute then [slash] else []) ++ slashed cs.

Lemma slashed_snoc cs c : cs <> [] -> slashed (cs ++ [c]) = slashed cs ++ slash :: c.
Proof.
  induction cs as [|a cs IH]; intros H; [congruence|]. destruct cs as [|b cs]; [reflexivity|]. change ((a :: b :: cs) ++ [c]) with (a :: (b :: cs) ++ [c]).
  cbn [slashed app] in *. rewrite IH by discriminate. now rewrite <- app_assoc.
Qed.
Lemma show_snoc ab cs c : cs <> [] -> show ab (cs ++ [c]) = show ab cs ++ slash :: c.
Proof. intros H. unfold show. rewrite slashed_snoc by exact H. now rewrite app_assoc. Qed.
Lemma no_slash c : ~ In slash c -> forallb (fun a => negb (is_slash a)) c = true.
Proof. intros H. apply forallb_forall. intros a Ha. apply negb_true_iff. apply not_true_iff_false. rewrite is_slash_eq. intros ->. exact (H Ha). Qed.
Lemma components_cons c r : ~ In slash c -> components (c ++ slash :: r) = c :: components r.
Proof.
  induction c as [|a c IH]; intros H; cbn.
  - reflexivity.
  - replace (is_slash a) with false; [|symmetry; apply not_true_iff_false; rewrite is_slash_eq; intros ->; apply H; now left].
    rewrite IH; [reflexivity|]. intros Hi. apply H. now right.
Qed.
Lemma components_single c : ~ In slash c -> components c = [c].
Proof.
  induction c as [|a c IH]; intros H; cbn; [reflexivity|].
  replace (is_slash a) with false; [|symmetry; apply not_true_iff_false; rewrite is_slash_eq; intros ->; apply H; now left].
  rewrite IH; [reflexivity|]. intros Hi. apply H. now right.
Qed.
Lemma components_slashed cs : Forall plain cs -> cs <> [] -> components (slashed cs) = cs.
Proof.
  induction cs as [|c cs IH]; intros Hp Hn; [congruence|]. inversion Hp as [|c' cs' Hc Hcs]; subst. destruct Hc as (_ & _ & _ & Hs).
  destruct cs as [|b cs]; [now apply components_single|]. change (slashed (c :: b :: cs)) with (c ++ slash :: slashed (b :: cs)). rewrite components_cons by exact Hs.
  now rewrite IH.
Qed.
Lemma slashed_last cs : Forall plain cs -> cs <> [] -> exists r a, slashed cs = r ++ [a] /\ is_slash a = false.
Proof.
  intros Hp Hn. destruct (exists_last Hn) as (cs' & c & ->). rewrite Forall_app in Hp. destruct Hp as [_ Hp]. inversion Hp as [|c' cs'' (Hc & _ & _ & Hs) _]; subst.
  destruct (exists_last Hc) as (r & a & ->).
  assert (Ha : is_slash a = false) by (apply not_true_iff_false; rewrite is_slash_eq; intros ->; apply Hs, in_or_app; right; now left).
  destruct cs' as [|b cs']; [now exists r, a|]. exists (slashed (b :: cs') ++ slash :: r), a. split; [|exact Ha]. rewrite slashed_snoc by discriminate. now rewrite <- app_assoc.
Qed.
Lemma split_last_component p c : ~ In slash c -> split (p ++ slash :: c) = ((if forallb is_slash (p ++ [slash]) then p ++ [slash] else rstrip_slash p), c).
Proof.
  intros Hc. unfold split. rewrite rev_app_distr. cbn [rev]. rewrite <- app_assoc. cbn [app].
  destruct (take_while_all (fun a => negb (is_slash a)) (rev c) slash (rev p)) as [-> ->]; [now rewrite forallb_rev; apply no_slash|reflexivity|].
  cbn [rev]. rewrite !rev_involutive. f_equal. destruct (forallb is_slash (p ++ [slash])); [reflexivity|]. now apply rstrip_slashes.
Qed.
Lemma show_nonempty ab cs : Forall plain cs -> cs <> [] -> exists a r, show ab cs = a :: r.
Proof. intros Hp Hn. destruct (slashed_last _ Hp Hn) as (r & a & E & _). unfold show. rewrite E. destruct ab; cbn; [eauto|]. destruct r; cbn; eauto. Qed.
Lemma show_last ab cs : Forall plain cs -> cs <> [] -> exists r a, show ab cs = r ++ [a] /\ is_slash a = false.
Proof.
  intros Hp Hn. destruct (slashed_last _ Hp Hn) as (r & a & E & Ha). unfold show. rewrite E. exists ((if ab then [slash] else []) ++ r), a. now rewrite <- app_assoc.
Qed.
Lemma split_show ab cs c : Forall plain cs -> plain c -> cs <> [] -> split (show ab (cs ++ [c])) = (show ab cs, c).
Proof.
  intros Hp (_ & _ & _ & Hc) Hn. rewrite show_snoc by exact Hn. rewrite split_last_component by exact Hc. f_equal. destruct (show_last ab cs Hp Hn) as (r & a & E & Ha).
  rewrite E. rewrite !forallb_app. cbn. rewrite Ha, !andb_false_r. now apply rstrip_app.
Qed.
Lemma split_show_one ab c : plain c -> split (show ab [c]) = ((if ab then [slash] else []), c).
Proof.
  intros (Hn & _ & _ & Hc). unfold show. cbn [slashed]. destruct ab; cbn [app].
  - pose proof (split_last_component [] c Hc) as E. cbn [app] in E. rewrite E. reflexivity.
  - unfold split. destruct (take_while_whole (fun a => negb (is_slash a)) (rev c)) as [-> ->]; [now rewrite forallb_rev; apply no_slash|]. cbn. now rewrite rev_involutive.
Qed.
Lemma components_show ab cs : Forall plain cs -> cs <> [] -> components (show ab cs) = (if ab then [[]] else []) ++ cs.
Proof. intros Hp Hn. unfold show. destruct ab; cbn; now rewrite components_slashed. Qed.

(** Entries lie in directories; the working directory is one. *)
Definition well_formed (s : fs) : Prop := fs_entry s [] = Some Dir /\ fs_entry s (fs_cwd s) = Some Dir /\ forall c q, fs_entry s (c :: q) <> None -> fs_entry s q = Some Dir.
Definition root (s : fs) (ab : bool) : location := if ab then [] else fs_cwd s.

Lemma start_show s ab cs : Forall plain cs -> cs <> [] -> start s (show ab cs) = root s ab.
Proof.
  intros Hp Hn. unfold start, show, root. destruct ab; cbn; [reflexivity|]. destruct cs as [|c cs]; [congruence|]. inversion Hp as [|c' cs' (Hc & _ & _ & Hs) _]; subst.
  destruct c as [|a c]; [congruence|]. assert (Ha : is_slash a = false) by (apply not_true_iff_false; rewrite is_slash_eq; intros ->; apply Hs; now left).
  destruct cs; cbn; now rewrite Ha.
Qed.
Lemma step_plain q c : plain c -> step q c = c :: q.
Proof. intros (H1 & H2 & H3 & _). unfold step. now rewrite (proj2 (str_eqb_neq _ _) H1), (proj2 (str_eqb_neq _ _) H2), (proj2 (str_eqb_neq _ _) H3). Qed.
Lemma walk_plain s cs : Forall plain cs -> forall q d, walk s q cs = Some d -> d = rev cs ++ q.
Proof.
  induction cs as [|c cs IH]; intros Hp q d; cbn [walk]; [now intros E; injection E as <-|]. inversion Hp; subst. destruct (is_dir s q); [|discriminate].
  rewrite step_plain by assumption. intros E. apply IH in E; [|assumption]. cbn. now rewrite <- app_assoc.
Qed.
Lemma ancestors s : well_formed s -> forall l q, fs_entry s (l ++ q) <> None -> l <> [] -> fs_entry s q = Some Dir.
Proof.
  intros (_ & _ & W). induction l as [|c l IH]; intros q H Hn; [congruence|]. cbn in H. destruct l as [|b l]; [now apply (W c)|].
  apply IH; [|discriminate]. rewrite (W c); [discriminate|exact H].
Qed.
Lemma walk_down s cs : well_formed s -> Forall plain cs -> forall q, fs_entry s (rev cs ++ q) <> None -> walk s q cs = Some (rev cs ++ q).
Proof.
  intros W. induction cs as [|c cs IH]; intros Hp q H; cbn [walk]; [reflexivity|]. inversion Hp; subst.
  rewrite (proj2 (is_dir_eq s q)).
  - rewrite step_plain by assumption. cbn in *. rewrite <- app_assoc in *. now apply IH.
  - apply (ancestors s W (rev (c :: cs))); [exact H|]. cbn. intros E. now apply app_eq_nil in E.
Qed.
Lemma resolve_eq s p : p <> [] -> resolve s p = walk s (start s p) (components p).
Proof. destruct p; [congruence|reflexivity]. Qed.
Lemma entry_at_show s ab cs : well_formed s -> Forall plain cs -> cs <> [] -> entry_at s (show ab cs) = fs_entry s (rev cs ++ root s ab).
Proof.
  intros W Hp Hn. unfold entry_at. rewrite resolve_eq by (destruct (show_nonempty ab _ Hp Hn) as (a & r & ->); discriminate).
  rewrite start_show, components_show by assumption.
  assert (Eab : forall o : option location, walk s (root s ab) ((if ab then [[]] else []) ++ cs) = walk s (root s ab) cs).
  { intros _. destruct ab; [|reflexivity]. cbn [app walk root]. destruct W as (W1 & _). now rewrite (proj2 (is_dir_eq s []) W1). }
  rewrite (Eab None). destruct (fs_entry s (rev cs ++ root s ab)) as [k|] eqn:Ek.
  - rewrite walk_down; [exact Ek|assumption|assumption|congruence].
  - destruct (walk s (root s ab) cs) as [d|] eqn:Ew; [|reflexivity]. apply walk_plain in Ew; [|assumption]. now rewrite Ew.
Qed.

Lemma mkdir_eq s p : p <> [] -> mkdir s p =
    match drop_while (fun c => str_eqb c []) (rev (components p)) with
    | [] => (s, Some FileExists)
    | c :: r =>
      match walk s (start s p) (rev r) with
      | None => (s, Some OtherOSError)
      | Some d =>
        if negb (is_dir s d) then (s, Some OtherOSError)
        else if str_eqb c dot || str_eqb c dotdot then (s, Some FileExists)
        else match fs_entry s (c :: d) with
             | Some _ => (s, Some FileExists)
             | None => if fs_may_create s (c :: d) then (add_dir s (c :: d), None) else (s, Some OtherOSError)
             end
      end
    end.
Proof. destruct p; [congruence|reflexivity]. Qed.
(** [mkdir] of a plain path whose parent is a directory and which does not exist. *)
Lemma mkdir_plain s ab cs c : well_formed s -> Forall plain cs -> plain c -> fs_entry s (rev cs ++ root s ab) = Some Dir -> fs_entry s (c :: rev cs ++ root s ab) = None ->
  fs_may_create s (c :: rev cs ++ root s ab) = true -> mkdir s (show ab (cs ++ [c])) = (add_dir s (c :: rev cs ++ root s ab), None).
Proof.
  intros W Hp Hc Hd Hn Hm. assert (Hpc : Forall plain (cs ++ [c])) by (apply Forall_app; split; [exact Hp|constructor; [exact Hc|constructor]]).
  assert (Hne : cs ++ [c] <> []) by (intros E; now apply app_eq_nil in E). rewrite mkdir_eq by (destruct (show_nonempty ab _ Hpc Hne) as (a & r & ->); discriminate).
  rewrite start_show, components_show by assumption. rewrite !rev_app_distr. cbn [rev app drop_while].
  destruct Hc as (C1 & C2 & C3 & C4). rewrite (proj2 (str_eqb_neq _ _) C1). rewrite rev_app_distr, !rev_involutive.
  assert (Ew : walk s (root s ab) ((if ab then [[]] else []) ++ cs) = Some (rev cs ++ root s ab)).
  { assert (Ew : walk s (root s ab) cs = Some (rev cs ++ root s ab)) by (apply walk_down; [assumption|assumption|congruence]).
    destruct ab; [|exact Ew]. cbn [app walk root]. destruct W as (W1 & _). now rewrite (proj2 (is_dir_eq s []) W1). }
  rewrite Ew, (proj2 (is_dir_eq _ _) Hd). cbn [negb]. rewrite (proj2 (str_eqb_neq _ _) C2), (proj2 (str_eqb_neq _ _) C3). cbn [orb]. now rewrite Hn, Hm.
Qed.

(** The locations of the path and of its parents, below its starting point. *)
Definition below (st : location) (cs : list str) (q : location) : Prop := exists i, 0 < i <= length cs /\ q = rev (firstn i cs) ++ st.
Lemma below_snoc st cs c q : below st (cs ++ [c]) q <-> below st cs q \/ q = rev (cs ++ [c]) ++ st.
Proof.
  unfold below. rewrite app_length. cbn [length]. split.
  - intros (i & Hi & ->). destruct (Nat.eq_dec i (length cs + 1)) as [->|Hne].
    + right. rewrite firstn_all2 by (rewrite app_length; cbn; lia). reflexivity.
    + left. exists i. split; [lia|]. rewrite firstn_app. replace (i - length cs) with 0 by lia. cbn. now rewrite app_nil_r.
  - intros [(i & Hi & ->)| ->].
    + exists i. split; [lia|]. rewrite firstn_app. replace (i - length cs) with 0 by lia. cbn. now rewrite app_nil_r.
    + exists (length cs + 1). split; [lia|]. rewrite firstn_all2 by (rewrite app_length; cbn; lia). reflexivity.
Qed.
Lemma add_dir_well_formed s c q : well_formed s -> fs_entry s q = Some Dir -> fs_entry s (c :: q) = None -> well_formed (add_dir s (c :: q)).
Proof.
  intros (W1 & W2 & W3) Hq Hn. split; [|split].
  - rewrite add_dir_entry. now destruct (list_eq_dec (list_eq_dec ascii_dec) _ _).
  - rewrite add_dir_entry. cbn [add_dir fs_cwd]. now destruct (list_eq_dec (list_eq_dec ascii_dec) _ _).
  - intros c' q'. rewrite !add_dir_entry. destruct (list_eq_dec (list_eq_dec ascii_dec) (c' :: q') (c :: q)) as [E|_].
    + injection E as -> ->. intros _. destruct (list_eq_dec (list_eq_dec ascii_dec) q (c :: q)); [reflexivity|exact Hq].
    + intros H. destruct (list_eq_dec (list_eq_dec ascii_dec) q' _); [reflexivity|]. exact (W3 _ _ H).
Qed.

Lemma makedirs_plain ab : forall cs n s, well_formed s -> Forall plain cs -> cs <> [] -> length cs <= n ->
  (forall q, below (root s ab) cs q -> fs_entry s q <> Some File) ->
  (forall q, below (root s ab) cs q -> fs_entry s q = None -> fs_may_create s q = true) ->
  fs_entry s (rev cs ++ root s ab) = None ->
  exists s', makedirs n s (show ab cs) = (s', None) /\ well_formed s' /\ fs_cwd s' = fs_cwd s /\ fs_may_create s' = fs_may_create s /\
    (forall q, below (root s ab) cs q -> fs_entry s' q = Some Dir) /\ (forall q, ~ below (root s ab) cs q -> fs_entry s' q = fs_entry s q).
Proof.
  intros cs. induction cs as [|c cs IH] using rev_ind; intros n s W Hp Hne Hl Hf Hm Hnone; [congruence|].
  destruct n as [|n]; [rewrite app_length in Hl; cbn in Hl; lia|]. apply Forall_app in Hp. destruct Hp as [Hp Hc]. inversion Hc as [|c' l' Hc' _]; subst. clear Hc.
  rewrite rev_app_distr in Hnone. cbn [rev app] in Hnone.
  assert (Hcm : fs_may_create s (c :: rev cs ++ root s ab) = true) by (apply Hm; [apply below_snoc; right; now rewrite rev_app_distr|exact Hnone]).
  assert (Final : forall s1, well_formed s1 -> fs_cwd s1 = fs_cwd s -> fs_may_create s1 = fs_may_create s -> fs_entry s1 (rev cs ++ root s ab) = Some Dir ->
    (forall q, below (root s ab) cs q -> fs_entry s1 q = Some Dir) -> (forall q, ~ below (root s ab) cs q -> fs_entry s1 q = fs_entry s q) -> 
    exists s', mkdir s1 (show ab (cs ++ [c])) = (s', None) /\ well_formed s' /\ fs_cwd s' = fs_cwd s /\ fs_may_create s' = fs_may_create s /\
      (forall q, below (root s ab) (cs ++ [c]) q -> fs_entry s' q = Some Dir) /\ (forall q, ~ below (root s ab) (cs ++ [c]) q -> fs_entry s' q = fs_entry s q)).
  { intros s1 W1 Ecwd Emay Hpar Hb Hnb. assert (Er : root s1 ab = root s ab) by (unfold root; now rewrite Ecwd).
    assert (Hn1 : fs_entry s1 (c :: rev cs ++ root s ab) = None).
    { rewrite Hnb; [exact Hnone|]. intros (i & Hi & E). apply (f_equal (@length _)) in E. cbn [length] in E. rewrite !app_length, !rev_length, firstn_length in E. lia. }
    exists (add_dir s1 (c :: rev cs ++ root s ab)). split; [rewrite <- Er; apply mkdir_plain; rewrite ?Er, ?Emay; assumption|]. split; [now apply add_dir_well_formed|].
    split; [exact Ecwd|]. split; [exact Emay|]. split; intros q; rewrite below_snoc, rev_app_distr, add_dir_entry; cbn [rev app].
    - intros [H| ->]; destruct (list_eq_dec (list_eq_dec ascii_dec) _ _); auto; congruence.
    - intros H. destruct (list_eq_dec (list_eq_dec ascii_dec) _ _) as [->|_]; [exfalso; apply H; now right|]. apply Hnb. intros H'. apply H. now left. }
  assert (Pn : str_eqb c [] = false) by (apply str_eqb_neq; apply Hc'). assert (Pd : str_eqb c dot = false) by (apply str_eqb_neq; apply Hc').
  assert (Pm : forall A (x y : A), match c with [] => x | _ => y end = y) by (intros A x y; destruct c; [now destruct Hc'|reflexivity]).
  cbn [makedirs]. destruct cs as [|b cs].
  - cbn [app]. rewrite split_show_one by exact Hc'. rewrite Pm, Pn. cbn [negb]. rewrite andb_true_r.
    match goal with |- context [if ?b then _ else mkdir s (show ab [c])] => assert (Hst : b = false) end.
    { destruct ab; [|reflexivity]. unfold path_exists, entry_at, resolve, start. cbn. destruct W as (W1 & _). unfold is_dir. rewrite W1. cbn. now rewrite W1. }
    rewrite Hst.
    cbv beta iota; apply (Final s); auto.
    + destruct W as (W1 & W2 & _). unfold root. destruct ab; assumption.
    + intros q (i & Hi & _). cbn in Hi. lia.
  - rewrite split_show by (assumption || discriminate). rewrite Pm, Pn, Pd. cbn [negb]. rewrite andb_true_r.
    set (bs := b :: cs) in *. assert (Hbs : bs <> []) by discriminate.
    replace (str_eqb (show ab bs) []) with false; [|symmetry; apply str_eqb_neq; destruct (show_nonempty ab bs Hp Hbs) as (x & y & ->); discriminate]. cbn [negb andb].
    unfold path_exists. rewrite entry_at_show by assumption.
    assert (Hlast : below (root s ab) bs (rev bs ++ root s ab)) by (exists (length bs); split; [unfold bs; cbn; lia|now rewrite firstn_all]).
    destruct (fs_entry s (rev bs ++ root s ab)) as [k|] eqn:Ek.
    + assert (k = Dir) as ->. { destruct k; [|reflexivity]. exfalso. apply (Hf (rev bs ++ root s ab)); [apply below_snoc; now left|exact Ek]. }
      cbn [negb]. apply (Final s); auto. intros q (i & Hi & ->). destruct (Nat.eq_dec i (length bs)) as [->|Hi']; [now rewrite firstn_all|].
      apply (ancestors s W (rev (skipn i bs))).
      * rewrite app_assoc, <- rev_app_distr, firstn_skipn. congruence.
      * intros E. apply (f_equal (@length _)) in E. rewrite rev_length, skipn_length in E. cbn [length] in E. lia.
    + cbn [negb]. destruct (IH n s) as (s1 & E1 & W1 & C1 & M1 & B1 & N1); auto.
      * rewrite app_length in Hl. cbn [length] in Hl. lia.
      * intros q Hq. apply Hf, below_snoc. now left.
      * intros q Hq. apply Hm, below_snoc. now left.
      * rewrite E1. apply (Final s1); auto.
Qed.
