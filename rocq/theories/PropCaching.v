(** C56: the cache directory. *)
From Coq Require Import Ascii String List Bool Arith Lia.
From Verif Require Import Caching CachingProofs.
Import ListNotations.
Local Open Scope list_scope.

Lemma returned_path e s name base create s' p : get_cache_dir e s name base create = (s', Path p) -> p = join (find_cache_base_dir e base) name.
Proof.
  unfold get_cache_dir. destruct (path_exists _ _); [congruence|]. destruct create; [|congruence]. destruct (makedirs _ _ _) as [s1 [err|]]; congruence.
Qed.
Lemma join_plain b name : b <> [] -> ends_with_slash b = false -> starts_with_slash name = false -> join b name = b ++ slash :: name.
Proof. intros H1 H2 H3. unfold join. rewrite H2, H3. now destruct b. Qed.

(** The base directory is the argument, else KYMATIO_CACHE, else kymatio_cache in the home directory; the name is appended after a slash. *)
Theorem C56_base : forall e s name base create s' p, get_cache_dir e s name base create = (s', Path p) ->
  forall b, b <> [] -> (forall b', b <> b' ++ ["/"%char]) -> (forall n', name <> "/"%char :: n') ->
  (base = Some b -> p = b ++ slash :: name) /\
  (base = None -> env_get e (lit "KYMATIO_CACHE") = Some b -> p = b ++ slash :: name) /\
  (base = None -> env_get e (lit "KYMATIO_CACHE") = None -> env_get e (lit "HOME") = Some b -> p = b ++ lit "/kymatio_cache/" ++ name) /\
  (base = None -> env_get e (lit "KYMATIO_CACHE") = None -> env_get e (lit "HOME") = None -> pw_dir e = Some b -> p = b ++ lit "/kymatio_cache/" ++ name).
Proof.
  intros e s name base create s' p H b Hb He' Hn'. apply returned_path in H. subst p.
  assert (He : ends_with_slash b = false).
  { unfold ends_with_slash. destruct (rev b) as [|c r] eqn:E; [reflexivity|]. unfold is_slash. destruct (Ascii.eqb_spec c slash) as [->|]; [|reflexivity].
    exfalso. apply (He' (rev r)). rewrite <- (rev_involutive b), E. reflexivity. }
  assert (Hn : starts_with_slash name = false).
  { destruct name as [|c r]; [reflexivity|]. cbn. unfold is_slash. destruct (Ascii.eqb_spec c slash) as [->|]; [|reflexivity]. exfalso. now apply (Hn' r). }
  assert (Hr : rstrip_slash b = b).
  { unfold rstrip_slash. unfold ends_with_slash in He. destruct (rev b) as [|c r] eqn:E; [apply (f_equal (@rev _)) in E; rewrite rev_involutive in E; now subst b|].
    cbn. rewrite He. rewrite <- E. apply rev_involutive. }
  assert (Hh : join (join (match b with [] => [slash] | _ => b end) (lit "kymatio_cache")) name = b ++ lit "/kymatio_cache/" ++ name).
  { replace (match b with [] => [slash] | _ => b end : str) with b by (destruct b; [congruence|reflexivity]). rewrite (join_plain b) by (assumption || reflexivity).
    rewrite join_plain; [rewrite <- app_assoc; reflexivity|now destruct b| |assumption]. unfold ends_with_slash. rewrite rev_app_distr. reflexivity. }
  unfold find_cache_base_dir, expanduser. split; [intros ->; now apply join_plain|]. split; [intros -> ->; now apply join_plain|]. split.
  - intros -> -> ->. rewrite Hr. rewrite <- Hh. now destruct b.
  - intros -> -> -> ->. rewrite Hr. rewrite <- Hh. now destruct b.
Qed.
Print Assumptions C56_base.

(** Without [create] nothing changes, and ValueError is raised exactly when the path is missing. *)
Theorem C56_no_create : forall e s name base, let p := join (find_cache_base_dir e base) name in
  get_cache_dir e s name base false = (s, if path_exists s p then Path p else NoDirectory).
Proof. intros e s name base p. unfold get_cache_dir. fold p. now destruct (path_exists s p). Qed.
Print Assumptions C56_no_create.

(** In all cases, what existed is kept, and what is new is a directory. *)
Theorem C56_only_adds_directories : forall e s name base create s' r, get_cache_dir e s name base create = (s', r) ->
  (forall q k, fs_entry s q = Some k -> fs_entry s' q = Some k) /\ (forall q k, fs_entry s q = None -> fs_entry s' q = Some k -> k = Dir /\ fs_may_create s q = true) /\
  fs_cwd s' = fs_cwd s /\ fs_may_create s' = fs_may_create s.
Proof.
  intros e s name base create s' r H. assert (He : extends s s').
  { revert H. unfold get_cache_dir. destruct (path_exists _ _); [intros E; injection E as <- <-; apply extends_refl|].
    destruct create; [|intros E; injection E as <- <-; apply extends_refl]. destruct (makedirs _ _ _) as [s1 [err|]] eqn:E1; apply makedirs_extends in E1; intros E; injection E as <- <-; exact E1. }
  destruct He as (A & B & C & D). auto.
Qed.
Print Assumptions C56_only_adds_directories.

(** After it returns the path exists, and is a directory unless it existed before and was not one; a second call returns the same
    path and changes nothing.  Missing from the full claim: the path may be a file, and paths that end in a dot; both refuted below. *)
Theorem C56_exists_partial : forall e s name base create s' p, get_cache_dir e s name base create = (s', Path p) ->
  (forall q, rstrip_slash p <> q ++ lit ".") ->
  path_exists s' p = true /\ (entry_at s p <> Some File -> entry_at s' p = Some Dir) /\
  forall create', get_cache_dir e s' name base create' = (s', Path p).
Proof.
  intros e s name base create s' p H Hd. pose proof (returned_path _ _ _ _ _ _ _ H) as Ep.
  assert (K : path_exists s' p = true /\ (entry_at s p <> Some File -> entry_at s' p = Some Dir)).
  { revert H. unfold get_cache_dir. rewrite <- Ep. unfold path_exists at 1. destruct (entry_at s p) as [k|] eqn:Ek.
    - intros E. injection E as <-. unfold path_exists. rewrite Ek. split; [reflexivity|]. destruct k; [congruence|reflexivity].
    - destruct create; [|discriminate]. destruct (makedirs _ s p) as [s1 [err|]] eqn:E1; [discriminate|]. intros E. injection E as <-.
      apply makedirs_created in E1; [|intros (q & Eq); exact (Hd q Eq)]. unfold path_exists. rewrite E1. auto. }
  destruct K as [K1 K2]. split; [exact K1|]. split; [exact K2|]. intros create'. unfold get_cache_dir. rewrite <- Ep, K1. reflexivity.
Qed.
Print Assumptions C56_exists_partial.

(** A path of ordinary names, none of whose parents is a file, where the process may create what is missing: the call returns, the
    path and its parents are directories, and nothing else has changed. *)
Theorem C56_creates : forall e s name base ab cs, well_formed s -> Forall plain cs -> cs <> [] -> join (find_cache_base_dir e base) name = show ab cs ->
  (forall q, below (root s ab) cs q -> fs_entry s q <> Some File) -> (forall q, below (root s ab) cs q -> fs_entry s q = None -> fs_may_create s q = true) ->
  exists s', get_cache_dir e s name base true = (s', Path (show ab cs)) /\ well_formed s' /\
    (forall q, below (root s ab) cs q -> fs_entry s' q = Some Dir) /\ (forall q, ~ below (root s ab) cs q -> fs_entry s' q = fs_entry s q).
Proof.
  intros e s name base ab cs W Hp Hn Ep Hf Hm. unfold get_cache_dir. rewrite Ep. unfold path_exists. rewrite entry_at_show by assumption.
  assert (Hlast : below (root s ab) cs (rev cs ++ root s ab)) by (exists (length cs); split; [destruct cs; [congruence|cbn; lia]|now rewrite firstn_all]).
  destruct (fs_entry s (rev cs ++ root s ab)) as [k|] eqn:Ek.
  - exists s. split; [reflexivity|]. split; [exact W|]. split; [|auto]. intros q (i & Hi & ->). destruct (Nat.eq_dec i (length cs)) as [->|Hi'].
    + rewrite firstn_all. destruct k; [exfalso; exact (Hf _ Hlast Ek)|exact Ek].
    + apply (ancestors s W (rev (skipn i cs))); [rewrite app_assoc, <- rev_app_distr, firstn_skipn; congruence|].
      intros E. apply (f_equal (@length _)) in E. rewrite rev_length, skipn_length in E. cbn [length] in E. lia.
  - assert (Hl : length cs <= length (show ab cs)).
    { unfold show. rewrite app_length. clear - Hp. induction cs as [|c cs IH]; [cbn; lia|]. inversion Hp as [|c' cs' (Hc & _) Hcs]; subst. specialize (IH Hcs).
      destruct c as [|a c]; [congruence|]. destruct cs as [|b cs]; [cbn in *; lia|]. change (slashed ((a :: c) :: b :: cs)) with ((a :: c) ++ slash :: slashed (b :: cs)).
      rewrite app_length. cbn [length] in *. lia. }
    destruct (makedirs_plain ab cs (S (length (show ab cs))) s) as (s' & E & W' & _ & _ & B & N); auto.
    rewrite E. eauto.
Qed.
Print Assumptions C56_creates.

(** The path returned may be a file. *)
Theorem C56_file_refuted : forall e s name base create, let p := join (find_cache_base_dir e base) name in
  entry_at s p = Some File -> get_cache_dir e s name base create = (s, Path p).
Proof. intros e s name base create p H. unfold get_cache_dir. fold p. unfold path_exists. now rewrite H. Qed.
Print Assumptions C56_file_refuted.

(** A machine with a home directory that contains a file named f, where everything may be created. *)
Definition machine : fs :=
  mk_fs (fun q => if list_eq_dec (list_eq_dec ascii_dec) q [] then Some Dir else if list_eq_dec (list_eq_dec ascii_dec) q [lit "home"] then Some Dir
                  else if list_eq_dec (list_eq_dec ascii_dec) q [lit "f"; lit "home"] then Some File else None) [lit "home"] (fun _ => true).
Definition settings : environment := mk_env (fun v => if str_eqb v (lit "HOME") then Some (lit "/home") else None) None.
Lemma machine_well_formed : well_formed machine.
Proof.
  split; [reflexivity|]. split; [reflexivity|]. intros c q. cbn [machine fs_entry].
  destruct (list_eq_dec (list_eq_dec ascii_dec) (c :: q) []) as [E|_]; [discriminate|].
  destruct (list_eq_dec (list_eq_dec ascii_dec) (c :: q) [lit "home"]) as [E|_]; [injection E as -> ->; intros _; reflexivity|].
  destruct (list_eq_dec (list_eq_dec ascii_dec) (c :: q) [lit "f"; lit "home"]) as [E|_]; [injection E as -> ->; intros _; reflexivity|congruence].
Qed.

(** The base directory a/../f/. has a missing, f a file: makedirs creates a, takes the existing file f for a directory that somebody created
    meanwhile, and returns because of the final dot; the path returned does not exist, and the next call without [create] raises ValueError. *)
Theorem C56_dot_refuted : exists s', get_cache_dir settings machine (lit ".") (Some (lit "a/../f")) true = (s', Path (lit "a/../f/.")) /\
  path_exists s' (lit "a/../f/.") = false /\ get_cache_dir settings s' (lit ".") (Some (lit "a/../f")) false = (s', NoDirectory).
Proof. eexists. split; [vm_compute; reflexivity|]. split; vm_compute; reflexivity. Qed.
Print Assumptions C56_dot_refuted.

(** get_cache_dir("mnist") on that machine creates /home/kymatio_cache and /home/kymatio_cache/mnist, which is then found. *)
Example C56_instance : exists s', get_cache_dir settings machine (lit "mnist") None true = (s', Path (lit "/home/kymatio_cache/mnist")) /\
  fs_entry s' [lit "mnist"; lit "kymatio_cache"; lit "home"] = Some Dir /\ fs_entry s' [lit "f"; lit "home"] = Some File /\
  get_cache_dir settings s' (lit "mnist") None false = (s', Path (lit "/home/kymatio_cache/mnist")) /\
  get_cache_dir settings machine (lit "mnist") None false = (machine, NoDirectory).
Proof.
  set (cs := [lit "home"; lit "kymatio_cache"; lit "mnist"]).
  assert (Hp : Forall plain cs) by (repeat constructor; try discriminate; cbn; intuition discriminate).
  destruct (C56_creates settings machine (lit "mnist") None true cs) as (s' & E & W & B & N); try exact Hp; try reflexivity; try discriminate; try exact machine_well_formed.
  { intros q (i & Hi & ->). cbn in Hi. destruct i as [|[|[|[|i]]]]; try lia; discriminate. }
  exists s'. split; [exact E|]. split; [apply B; exists 3; split; [cbn; lia|reflexivity]|]. split.
  - rewrite N; [reflexivity|]. intros (i & Hi & Eq). cbn in Hi. destruct i as [|[|[|[|i]]]]; try lia; discriminate Eq.
  - split; [|reflexivity]. eapply C56_exists_partial; [exact E|]. intros q Eq. apply (f_equal (@rev _)) in Eq. rewrite rev_app_distr in Eq. discriminate Eq.
Qed.
Example C56_file_instance : get_cache_dir settings machine (lit "f") (Some (lit "/home")) true = (machine, Path (lit "/home/f")).
Proof. exact (C56_file_refuted settings machine (lit "f") (Some (lit "/home")) true eq_refl). Qed.
