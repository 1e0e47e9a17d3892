(** C54 (dispatch), C55 (backends and frontends), C59 (input checks). *)
From Coq Require Import Ascii String ZArith List Bool Lia.
From Verif Require Import Base Frontends.
Import ListNotations.
Local Open Scope string_scope.

(** * C54 *)
(** Letters that differ by their case only. *)
Definition same_letter (a b : ascii) : Prop :=
  a = b \/ exists n, 65 <= n <= 90 /\ ((a = ascii_of_nat n /\ b = ascii_of_nat (n + 32)) \/ (b = ascii_of_nat n /\ a = ascii_of_nat (n + 32))).
Fixpoint same_word (s t : string) : Prop :=
  match s, t with
  | EmptyString, EmptyString => True
  | String a r, String b r' => same_letter a b /\ same_word r r'
  | _, _ => False
  end.

Lemma lower_letter a b : lower_ascii a = lower_ascii b <-> same_letter a b.
Proof.
  assert (Ha := nat_ascii_bounded a). assert (Hb := nat_ascii_bounded b). unfold lower_ascii, same_letter. split.
  - intros H.
    destruct (Nat.leb_spec 65 (nat_of_ascii a)), (Nat.leb_spec (nat_of_ascii a) 90), (Nat.leb_spec 65 (nat_of_ascii b)), (Nat.leb_spec (nat_of_ascii b) 90); cbn [andb] in H; try (now left);
    repeat match goal with
    | E : ascii_of_nat _ = ascii_of_nat _ |- _ => left; apply (f_equal nat_of_ascii) in E; rewrite !nat_ascii_embedding in E by lia; rewrite <- (ascii_nat_embedding a), <- (ascii_nat_embedding b); f_equal; lia
    | E : ascii_of_nat (nat_of_ascii a + 32) = b |- _ => right; exists (nat_of_ascii a); split; [lia|]; left; now rewrite ascii_nat_embedding
    | E : a = ascii_of_nat (nat_of_ascii b + 32) |- _ => right; exists (nat_of_ascii b); split; [lia|]; right; now rewrite ascii_nat_embedding
    end.
  - intros [->|(n & Hn & [[-> ->]|[-> ->]])]; [reflexivity| |];
    rewrite !nat_ascii_embedding by lia; rewrite (proj2 (Nat.leb_le 65 n)), (proj2 (Nat.leb_le n 90)), (proj2 (Nat.leb_gt (n + 32) 90)) by lia; rewrite andb_false_r; reflexivity.
Qed.
Lemma lower_word s : forall t, lower s = lower t <-> same_word s t.
Proof.
  induction s as [|a s IH]; intros [|b t]; cbn; try (split; [discriminate|contradiction]); [tauto|].
  rewrite <- lower_letter, <- IH. split; [intros E; injection E; auto|intros [-> ->]; reflexivity].
Qed.

(** The classes of the frontends: 22 of the 24 combinations. *)
Definition frontend_classes : list (entry_class * string * string) :=
  [(ScatteringEntry1D, "numpy", "ScatteringNumPy1D"); (ScatteringEntry1D, "torch", "ScatteringTorch1D"); (ScatteringEntry1D, "tensorflow", "ScatteringTensorFlow1D");
   (ScatteringEntry1D, "jax", "ScatteringJax1D"); (ScatteringEntry1D, "keras", "ScatteringKeras1D"); (ScatteringEntry1D, "sklearn", "ScatteringTransformer1D");
   (TimeFrequencyScatteringEntry, "numpy", "TimeFrequencyScatteringNumPy"); (TimeFrequencyScatteringEntry, "torch", "TimeFrequencyScatteringTorch");
   (TimeFrequencyScatteringEntry, "tensorflow", "TimeFrequencyScatteringTensorFlow"); (TimeFrequencyScatteringEntry, "jax", "TimeFrequencyScatteringJax");
   (TimeFrequencyScatteringEntry, "sklearn", "TimeFrequencyScatteringTransformer");
   (ScatteringEntry2D, "numpy", "ScatteringNumPy2D"); (ScatteringEntry2D, "torch", "ScatteringTorch2D"); (ScatteringEntry2D, "tensorflow", "ScatteringTensorFlow2D");
   (ScatteringEntry2D, "jax", "ScatteringJax2D"); (ScatteringEntry2D, "keras", "ScatteringKeras2D"); (ScatteringEntry2D, "sklearn", "ScatteringTransformer2D");
   (HarmonicScatteringEntry3D, "numpy", "HarmonicScatteringNumPy3D"); (HarmonicScatteringEntry3D, "torch", "HarmonicScatteringTorch3D");
   (HarmonicScatteringEntry3D, "tensorflow", "HarmonicScatteringTensorFlow3D"); (HarmonicScatteringEntry3D, "jax", "HarmonicScatteringJax3D");
   (HarmonicScatteringEntry3D, "sklearn", "HarmonicScatteringTransformer3D")].

(** The frontend asked for: the keyword if it is given, else numpy. *)
Definition asks {A} (kwargs : list (string * kwarg A)) (f : string) : Prop :=
  In ("frontend", KStr f) kwargs \/ (f = "numpy" /\ ~ In "frontend" (map fst kwargs)).
(** Keyword arguments as Python passes them: distinct keys, none of them name or class_name. *)
Definition keywords {A} (kwargs : list (string * kwarg A)) : Prop :=
  NoDup (map fst kwargs) /\ ~ In "name" (map fst kwargs) /\ ~ In "class_name" (map fst kwargs).

Lemma assoc_In {V} (k : string) (l : list (string * V)) v : NoDup (map fst l) -> In (k, v) l -> assoc k l = Some v.
Proof.
  induction l as [|[k' v'] l IH]; cbn; [contradiction|]. intros Hd [E|H].
  - injection E as -> ->. now rewrite String.eqb_refl.
  - inversion Hd as [|? ? Hn Hd']; subst. destruct (String.eqb_spec k k') as [->|_]; [|now apply IH]. exfalso. apply Hn. now apply (in_map fst) in H.
Qed.
Lemma assoc_notin {V} (k : string) (l : list (string * V)) : ~ In k (map fst l) -> assoc k l = None.
Proof.
  induction l as [|[k' v'] l IH]; cbn; [reflexivity|]. intros H. destruct (String.eqb_spec k k') as [->|_]; [exfalso; apply H; now left|]. apply IH. intros Hi. apply H. now right.
Qed.
Lemma remove_notin {V} (k : string) (l : list (string * V)) : ~ In k (map fst l) -> remove_key k l = l.
Proof.
  induction l as [|[k' v'] l IH]; cbn; [reflexivity|]. intros H. destruct (String.eqb_spec k k') as [->|_]; [exfalso; apply H; now left|]. cbn. f_equal. apply IH. intros Hi. apply H. now right.
Qed.
Lemma keywords_ok {A} (kwargs : list (string * kwarg A)) : keywords kwargs -> existsb (fun kv => has_string (fst kv) ["name"; "class_name"]) kwargs = false.
Proof.
  intros (_ & H1 & H2). apply not_true_iff_false. rewrite existsb_exists. intros ([k v] & Hi & Hk). apply (in_map fst) in Hi. cbn in Hi, Hk.
  destruct (String.eqb_spec k "name") as [->|_]; [contradiction|]. destruct (String.eqb_spec k "class_name") as [->|_]; [contradiction|]. discriminate.
Qed.
Lemma remaining_eq {A} (kwargs : list (string * kwarg A)) : remove_key "frontend" kwargs = filter (fun kv => negb (String.eqb (fst kv) "frontend")) kwargs.
Proof. unfold remove_key. apply filter_ext. intros kv. now rewrite String.eqb_sym. Qed.

(** What the entry does once the frontend is known. *)
Lemma entry_asks {A I} imports (construct : string -> list A -> list (string * kwarg A) -> res I) k args kwargs f : keywords kwargs -> asks kwargs f ->
  entry imports construct k args kwargs =
  (_ <- raise_if (negb (has_string (lower f) (map fst frontend_suffixes))) RuntimeError ;;
   classes <- import_module imports ("kymatio." ++ entry_package k ++ ".frontend." ++ lower f ++ "_frontend") ;;
   suffix <- match assoc (lower f) frontend_suffixes with Some s => Ok s | None => Err KeyError end ;;
   c <- get_class classes (replace "Entry" suffix (entry_name k)) ;;
   construct c args (remove_key "frontend" kwargs))%res.
Proof.
  intros Hk [Hf|[-> Hn]]; unfold entry; rewrite (keywords_ok _ Hk); cbn [raise_if bind].
  - destruct Hk as (Hd & _). now rewrite (assoc_In _ _ _ Hd Hf).
  - now rewrite (assoc_notin _ _ Hn), (remove_notin _ _ Hn).
Qed.

Definition row_ok (r : entry_class * string * string) : bool :=
  let '(k, name, c) := r in
  has_string (lower name) (map fst frontend_suffixes) && String.eqb (lower name) name &&
  match assoc ("kymatio." ++ entry_package k ++ ".frontend." ++ name ++ "_frontend") frontend_modules, assoc name frontend_suffixes with
  | Some classes, Some suffix => has_string (replace "Entry" suffix (entry_name k)) classes && String.eqb (replace "Entry" suffix (entry_name k)) c
  | _, _ => false
  end.
Lemma rows_ok r : In r frontend_classes -> row_ok r = true.
Proof. apply forallb_forall. vm_compute. reflexivity. Qed.

(** For 22 of the 24 combinations, in whatever case the name is written: the class of the frontend is constructed with all the remaining
    arguments, or ImportError is raised because a library is missing.  Missing from the full claim: Keras for the 3-D and joint transforms. *)
Theorem C54_dispatch_partial : forall A I imports (construct : string -> list A -> list (string * kwarg A) -> res I) k args kwargs f name c,
  keywords kwargs -> asks kwargs f -> same_word f name -> In (k, name, c) frontend_classes ->
  entry imports construct k args kwargs =
  if imports ("kymatio." ++ entry_package k ++ ".frontend." ++ name ++ "_frontend") then construct c args (filter (fun kv => negb (String.eqb (fst kv) "frontend")) kwargs)
  else Err ImportError.
Proof.
  intros A I imports construct k args kwargs f name c Hk Hf Hw Hin. rewrite (entry_asks _ _ _ _ _ _ Hk Hf), <- remaining_eq.
  apply lower_word in Hw. rewrite Hw. clear Hw Hk Hf f.
  apply rows_ok in Hin. unfold row_ok in Hin. apply andb_prop in Hin. destruct Hin as [Hin H3]. apply andb_prop in Hin. destruct Hin as [H1 H2]. apply String.eqb_eq in H2.
  rewrite H1, H2. cbn [negb raise_if bind]. unfold import_module. destruct (assoc _ frontend_modules) as [classes|]; [|discriminate]. destruct (assoc name frontend_suffixes) as [suffix|]; [|discriminate].
  apply andb_prop in H3. destruct H3 as [H3 H4]. apply String.eqb_eq in H4. destruct (imports _); [|reflexivity]. cbn [bind]. unfold get_class. rewrite H3. cbn [bind]. now rewrite H4.
Qed.
Print Assumptions C54_dispatch_partial.

(** Any other name raises RuntimeError, a frontend that is not a string AttributeError, and the keywords name and class_name TypeError. *)
Theorem C54_unknown_frontend : forall A I imports (construct : string -> list A -> list (string * kwarg A) -> res I) k args kwargs f,
  keywords kwargs -> asks kwargs f -> (forall name, In name ["torch"; "numpy"; "tensorflow"; "jax"; "keras"; "sklearn"] -> ~ same_word f name) ->
  entry imports construct k args kwargs = Err RuntimeError.
Proof.
  intros A I imports construct k args kwargs f Hk Hf Hn. rewrite (entry_asks _ _ _ _ _ _ Hk Hf).
  replace (has_string (lower f) (map fst frontend_suffixes)) with false; [reflexivity|]. symmetry. apply not_true_iff_false. unfold has_string. rewrite existsb_exists. intros (n & Hi & E).
  apply String.eqb_eq in E. apply (Hn n Hi). apply lower_word. rewrite E. cbn in Hi. repeat (destruct Hi as [<-|Hi]; [reflexivity|]). contradiction.
Qed.
Print Assumptions C54_unknown_frontend.

(** Keras is one of the six names, but the 3-D transform raises ImportError and the joint one AttributeError with every library installed. *)
Theorem C54_keras_refuted : forall A I imports (construct : string -> list A -> list (string * kwarg A) -> res I) args kwargs f,
  keywords kwargs -> asks kwargs f -> same_word f "keras" ->
  entry imports construct HarmonicScatteringEntry3D args kwargs = Err ImportError /\
  (imports "kymatio.scattering1d.frontend.keras_frontend" = true -> entry imports construct TimeFrequencyScatteringEntry args kwargs = Err AttributeError).
Proof.
  intros A I imports construct args kwargs f Hk Hf Hw. rewrite !(entry_asks _ _ _ _ _ _ Hk Hf). apply lower_word in Hw. rewrite Hw. split.
  - unfold import_module.
    replace (has_string (lower "keras") (map fst frontend_suffixes)) with true by (vm_compute; reflexivity).
    replace (assoc ("kymatio." ++ entry_package HarmonicScatteringEntry3D ++ ".frontend." ++ lower "keras" ++ "_frontend") frontend_modules) with (@None (list string)) by (vm_compute; reflexivity).
    reflexivity.
  - intros Hi. unfold import_module, get_class.
    replace (has_string (lower "keras") (map fst frontend_suffixes)) with true by (vm_compute; reflexivity).
    replace ("kymatio." ++ entry_package TimeFrequencyScatteringEntry ++ ".frontend." ++ lower "keras" ++ "_frontend") with "kymatio.scattering1d.frontend.keras_frontend" by (vm_compute; reflexivity).
    replace (assoc "kymatio.scattering1d.frontend.keras_frontend" frontend_modules) with (Some ["ScatteringKeras1D"]) by (vm_compute; reflexivity). rewrite Hi. cbn [negb raise_if bind].
    replace (assoc (lower "keras") frontend_suffixes) with (Some "Keras") by (vm_compute; reflexivity). cbn [bind].
    replace (has_string (replace "Entry" "Keras" (entry_name TimeFrequencyScatteringEntry)) ["ScatteringKeras1D"]) with false by (vm_compute; reflexivity). reflexivity.
Qed.
Print Assumptions C54_keras_refuted.

(** Scattering1D(J, shape=..., frontend="TensorFlow", Q=8). *)
Example C54_instance : entry (fun _ => true) (fun c args kwargs => Ok (c, args, kwargs)) ScatteringEntry1D [6%Z] [("shape", KVal 4096%Z); ("frontend", KStr "TensorFlow"); ("Q", KVal 8%Z)]
  = Ok ("ScatteringTensorFlow1D", [6%Z], [("shape", KVal 4096%Z); ("Q", KVal 8%Z)]).
Proof.
  rewrite (C54_dispatch_partial _ _ (fun _ => true) _ ScatteringEntry1D _ _ "TensorFlow" "tensorflow" "ScatteringTensorFlow1D"); [reflexivity| | | |].
  - split; [repeat constructor; cbn; intuition discriminate|]. split; cbn; intuition discriminate.
  - left. cbn. auto.
  - apply lower_word. reflexivity.
  - cbn. auto.
Qed.
Example C54_unknown_instance : entry (fun _ => true) (fun c args kwargs => Ok (c, args, kwargs)) ScatteringEntry2D [6%Z] [("frontend", KStr "pytorch")] = Err RuntimeError.
Proof.
  apply (C54_unknown_frontend _ _ _ _ _ _ _ "pytorch").
  - split; [repeat constructor; cbn; intuition discriminate|]. split; cbn; intuition discriminate.
  - left. now left.
  - intros name Hn Hw. apply lower_word in Hw. cbn in Hn. repeat (destruct Hn as [<-|Hn]; [discriminate|]). contradiction.
Qed.
Example C54_keras_instance : entry (fun _ => true) (fun c args kwargs => Ok (c, args, kwargs)) HarmonicScatteringEntry3D [2%Z] [("frontend", KStr "Keras")] = Err ImportError.
Proof.
  apply (C54_keras_refuted _ _ _ _ _ _ "Keras").
  - split; [repeat constructor; cbn; intuition discriminate|]. split; cbn; intuition discriminate.
  - left. now left.
  - apply lower_word. reflexivity.
Qed.

(** * C55 *)
Lemma prefix_app p s : String.prefix p s = true <-> exists r, s = p ++ r.
Proof.
  revert s. induction p as [|a p IH]; intros s; [destruct s; cbn; split; eauto|]. destruct s as [|b s]; cbn; [split; [discriminate|intros (r & E); discriminate]|].
  destruct (ascii_dec a b) as [->|Hn].
  - rewrite IH. split; intros (r & E); exists r; [now rewrite E|now injection E].
  - split; [discriminate|]. intros (r & E). injection E as -> _. congruence.
Qed.

(** A name, or an object with a name, that does not start with the name of the frontend raises ImportError; whatever is accepted starts with it. *)
Theorem C55_backend_of_frontend : forall imports frontend_name,
  (forall name, (forall suffix, name <> frontend_name ++ suffix) ->
    instantiate_backend imports frontend_name (BackendName name) = Err ImportError /\ instantiate_backend imports frontend_name (BackendObject (Some name)) = Err ImportError) /\
  (forall name suffix, name = frontend_name ++ suffix -> instantiate_backend imports frontend_name (BackendObject (Some name)) = Ok name) /\
  (forall b name, instantiate_backend imports frontend_name b = Ok name -> (b = BackendName name \/ b = BackendObject (Some name)) /\ exists suffix, name = frontend_name ++ suffix) /\
  (forall name e, instantiate_backend imports frontend_name (BackendName name) = Err e -> e = ImportError).
Proof.
  intros imports fn. split; [|split; [|split]].
  - intros name Hn. assert (E : String.prefix fn name = false) by (apply not_true_iff_false; rewrite prefix_app; intros (r & E); exact (Hn r E)).
    unfold instantiate_backend. now rewrite E.
  - intros name suffix ->. unfold instantiate_backend. now rewrite (proj2 (prefix_app fn (fn ++ suffix))) by eauto.
  - intros [s|[s|]] name; cbn [instantiate_backend]; [| |discriminate].
    + destruct (String.prefix fn s) eqn:E; [|discriminate]. apply prefix_app in E. destruct (assoc s backend_modules) as [n|] eqn:Ea; [|discriminate].
      destruct (imports s); [|discriminate]. intros En. injection En as ->.
      assert (name = s) as ->; [|auto]. cbn in Ea.
      repeat match type of Ea with (if String.eqb s ?k then _ else _) = _ => destruct (String.eqb_spec s k) as [->|_]; [now injection Ea|] end. discriminate.
    + destruct (String.prefix fn s) eqn:E; [|discriminate]. apply prefix_app in E. intros En. injection En as ->. auto.
  - intros name e. cbn [instantiate_backend]. destruct (String.prefix fn name); [|congruence]. destruct (assoc name backend_modules); [|congruence]. destruct (imports name); congruence.
Qed.
Print Assumptions C55_backend_of_frontend.

(** With every library installed: the backends each frontend accepts by name. *)
Theorem C55_accepted_names : forall name,
  (is_ok (instantiate_backend (fun _ => true) "numpy" (BackendName name)) = true <-> name = "numpy") /\
  (is_ok (instantiate_backend (fun _ => true) "torch" (BackendName name)) = true <-> name = "torch" \/ name = "torch_skcuda") /\
  (is_ok (instantiate_backend (fun _ => true) "tensorflow" (BackendName name)) = true <-> name = "tensorflow") /\
  (is_ok (instantiate_backend (fun _ => true) "jax" (BackendName name)) = true <-> name = "jax") /\
  is_ok (instantiate_backend (fun _ => true) "keras" (BackendName name)) = false.
Proof.
  intros name. unfold instantiate_backend. cbn [assoc backend_modules].
  assert (D : (name = "numpy" \/ name = "torch" \/ name = "torch_skcuda" \/ name = "tensorflow" \/ name = "jax") \/
              (name <> "numpy" /\ name <> "torch" /\ name <> "torch_skcuda" /\ name <> "tensorflow" /\ name <> "jax")).
  { destruct (string_dec name "numpy"), (string_dec name "torch"), (string_dec name "torch_skcuda"), (string_dec name "tensorflow"), (string_dec name "jax"); tauto. }
  destruct D as [[->|[->|[->|[->| ->]]]]|(H1 & H2 & H3 & H4 & H5)]; try (cbn; intuition (congruence || discriminate)).
  rewrite (proj2 (String.eqb_neq _ _) H1), (proj2 (String.eqb_neq _ _) H2), (proj2 (String.eqb_neq _ _) H3), (proj2 (String.eqb_neq _ _) H4), (proj2 (String.eqb_neq _ _) H5).
  repeat match goal with |- context [String.prefix ?a ?b] => destruct (String.prefix a b) end; cbn; intuition congruence.
Qed.
Print Assumptions C55_accepted_names.
Example C55_instance : instantiate_backend (fun _ => true) "torch" (BackendName "torch_skcuda") = Ok "torch_skcuda" /\
  instantiate_backend (fun _ => true) "torch" (BackendName "numpy") = Err ImportError /\ instantiate_backend (fun _ => true) "numpy" (BackendObject (Some "torch")) = Err ImportError.
Proof.
  split; [reflexivity|]. split; [apply (C55_backend_of_frontend (fun _ => true) "torch"); intros r; discriminate|apply (C55_backend_of_frontend (fun _ => true) "numpy"); intros r; discriminate].
Qed.

(** * C59 *)
(** None raises TypeError in the three backends; NumPy accepts arrays of NumPy and nothing else, torch contiguous tensors and nothing else.
    Missing from the full claim: the exception raised for other objects, and JAX. *)
Theorem C59_input_checks_partial :
  numpy_input_checks PyNone = Err TypeError /\ jax_input_checks PyNone = Err TypeError /\ torch_input_checks PyNone = Err TypeError /\
  (forall x, numpy_input_checks x = Ok tt <-> x = NumpyArray) /\
  (forall x, torch_input_checks x = Ok tt <-> x = TorchTensor true) /\
  jax_input_checks JaxArray = Ok tt /\ jax_input_checks NumpyArray = Ok tt.
Proof.
  repeat (split; [reflexivity|]). split; [intros [ | | |[] | | ]; cbn; split; congruence|]. split; [intros [ | | |[] | | ]; cbn; split; congruence|]. split; reflexivity.
Qed.
Print Assumptions C59_input_checks_partial.
(** Anything else that is not an array raises NameError (NumPy), AttributeError (torch), or is accepted (JAX): never the documented TypeError. *)
Theorem C59_type_error_refuted : forall x, x <> PyNone ->
  (x <> NumpyArray -> numpy_input_checks x = Err NameError) /\ jax_input_checks x = Ok tt /\ ((forall c, x <> TorchTensor c) -> torch_input_checks x = Err AttributeError).
Proof. intros [ | | |c | | ] H; cbn; repeat split; intros; congruence. Qed.
Print Assumptions C59_type_error_refuted.
Example C59_instance : numpy_input_checks Other = Err NameError /\ jax_input_checks Other = Ok tt /\ torch_input_checks NumpyArray = Err AttributeError.
Proof. repeat split; apply C59_type_error_refuted; discriminate. Qed.
