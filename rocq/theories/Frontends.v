(** The glue between the frontends: kymatio/frontend/entry.py (dispatch by the name of the frontend), _instantiate_backend of
    kymatio/frontend/base_frontend.py and the input_checks of the backends.

    Strings are ASCII.  The import machinery is abstract: [imports m] tells whether importing the module m, which exists in the package,
    succeeds (its own imports may be missing from the machine). *)
From Coq Require Import Ascii String ZArith List Bool Lia.
From Verif Require Import Base.
Import ListNotations.
Local Open Scope string_scope.
Local Open Scope res_scope.

(** * entry.py *)
(** str.lower() on ASCII strings *)
Definition lower_ascii (c : ascii) : ascii :=
  let n := nat_of_ascii c in if (65 <=? n)%nat && (n <=? 90)%nat then ascii_of_nat (n + 32) else c.
Fixpoint lower (s : string) : string := match s with EmptyString => EmptyString | String c r => String (lower_ascii c) (lower r) end.

(** str.replace(old, new), all occurrences from left to right, for a non-empty [old]. *)
Fixpoint replace_fuel (fuel : nat) (old new s : string) : string :=
  match fuel with
  | O => s
  | S fuel =>
    match s with
    | EmptyString => EmptyString
    | String c r => if String.prefix old s then new ++ replace_fuel fuel old new (substring (String.length old) (String.length s - String.length old) s)
                    else String c (replace_fuel fuel old new r)
    end
  end.
Definition replace (old new s : string) : string := replace_fuel (S (String.length s)) old new s.

(** scattering1d/frontend/entry.py 3-10, scattering2d/frontend/entry.py 3-5, scattering3d/frontend/entry.py 4-8: the classes exported as Scattering1D,
    TimeFrequencyScattering, Scattering2D, HarmonicScattering3D by kymatio/__init__.py 18-21, with the package they look into. *)
Inductive entry_class := ScatteringEntry1D | TimeFrequencyScatteringEntry | ScatteringEntry2D | HarmonicScatteringEntry3D.
Definition entry_name (k : entry_class) : string :=
  match k with ScatteringEntry1D => "ScatteringEntry1D" | TimeFrequencyScatteringEntry => "TimeFrequencyScatteringEntry"
             | ScatteringEntry2D => "ScatteringEntry2D" | HarmonicScatteringEntry3D => "HarmonicScatteringEntry3D" end.
Definition entry_package (k : entry_class) : string :=
  match k with ScatteringEntry1D | TimeFrequencyScatteringEntry => "scattering1d" | ScatteringEntry2D => "scattering2d" | HarmonicScatteringEntry3D => "scattering3d" end.

(** The frontend modules of the package (files kymatio/scattering?d/frontend/..._frontend.py) and the classes they define. *)
Definition frontend_modules : list (string * list string) :=
  [("kymatio.scattering1d.frontend.numpy_frontend", ["ScatteringNumPy1D"; "TimeFrequencyScatteringNumPy"]);
   ("kymatio.scattering1d.frontend.torch_frontend", ["ScatteringTorch1D"; "TimeFrequencyScatteringTorch"]);
   ("kymatio.scattering1d.frontend.tensorflow_frontend", ["ScatteringTensorFlow1D"; "TimeFrequencyScatteringTensorFlow"]);
   ("kymatio.scattering1d.frontend.jax_frontend", ["ScatteringJax1D"; "TimeFrequencyScatteringJax"]);
   ("kymatio.scattering1d.frontend.keras_frontend", ["ScatteringKeras1D"]);
   ("kymatio.scattering1d.frontend.sklearn_frontend", ["ScatteringTransformer1D"; "TimeFrequencyScatteringTransformer"]);
   ("kymatio.scattering2d.frontend.numpy_frontend", ["ScatteringNumPy2D"]);
   ("kymatio.scattering2d.frontend.torch_frontend", ["ScatteringTorch2D"]);
   ("kymatio.scattering2d.frontend.tensorflow_frontend", ["ScatteringTensorFlow2D"]);
   ("kymatio.scattering2d.frontend.jax_frontend", ["ScatteringJax2D"]);
   ("kymatio.scattering2d.frontend.keras_frontend", ["ScatteringKeras2D"]);
   ("kymatio.scattering2d.frontend.sklearn_frontend", ["ScatteringTransformer2D"]);
   ("kymatio.scattering3d.frontend.numpy_frontend", ["HarmonicScatteringNumPy3D"]);
   ("kymatio.scattering3d.frontend.torch_frontend", ["HarmonicScatteringTorch3D"]);
   ("kymatio.scattering3d.frontend.tensorflow_frontend", ["HarmonicScatteringTensorFlow3D"]);
   ("kymatio.scattering3d.frontend.jax_frontend", ["HarmonicScatteringJax3D"]);
   ("kymatio.scattering3d.frontend.sklearn_frontend", ["HarmonicScatteringTransformer3D"])].

Fixpoint assoc {V} (k : string) (l : list (string * V)) : option V := match l with [] => None | (k', v) :: r => if String.eqb k k' then Some v else assoc k r end.
(** importlib.import_module: ImportError (ModuleNotFoundError) if there is no such module or its own imports fail. *)
Definition import_module (imports : string -> bool) (m : string) : res (list string) :=
  match assoc m frontend_modules with Some classes => if imports m then Ok classes else Err ImportError | None => Err ImportError end.
Definition has_string (s : string) (l : list string) : bool := existsb (String.eqb s) l.
(** getattr(module, class_name) *)
Definition get_class (classes : list string) (c : string) : res string := if has_string c classes then Ok c else Err AttributeError.

(** entry.py 13-18 *)
Definition frontend_suffixes : list (string * string) :=
  [("torch", "Torch"); ("numpy", "NumPy"); ("tensorflow", "TensorFlow"); ("jax", "Jax"); ("keras", "Keras"); ("sklearn", "Transformer")].

(** Keyword arguments: the value of frontend is a string or another object; the others are opaque. *)
Inductive kwarg (A : Type) := KStr (s : string) | KVal (v : A).
Arguments KStr {A} s. Arguments KVal {A} v.
Definition remove_key {V} (k : string) (l : list (string * V)) : list (string * V) := filter (fun kv => negb (String.eqb k (fst kv))) l.

(** entry.py 6-47, ScatteringEntry.__init__, called by the entry class [k] with the positional arguments [args] and the keyword arguments
    [kwargs]; the keywords name and class_name are given by the entry class, so that the user's own make Python raise TypeError.
    [construct] is the __init__ of the class found; its exceptions are raised again as they are (entry.py 44-45). *)
Definition entry {A I} (imports : string -> bool) (construct : string -> list A -> list (string * kwarg A) -> res I)
  (k : entry_class) (args : list A) (kwargs : list (string * kwarg A)) : res I :=
  _ <- raise_if (existsb (fun kv => has_string (fst kv) ["name"; "class_name"]) kwargs) TypeError ;;
  '(frontend, kwargs) <- match assoc "frontend" kwargs with
                         | None => Ok ("numpy", kwargs)
                         | Some (KStr f) => Ok (lower f, remove_key "frontend" kwargs)
                         | Some (KVal _) => Err AttributeError
                         end ;;
  _ <- raise_if (negb (has_string frontend (map fst frontend_suffixes))) RuntimeError ;;
  classes <- import_module imports ("kymatio." ++ entry_package k ++ ".frontend." ++ frontend ++ "_frontend") ;;
  suffix <- match assoc frontend frontend_suffixes with Some s => Ok s | None => Err KeyError end ;;
  c <- get_class classes (replace "Entry" suffix (entry_name k)) ;;
  construct c args kwargs.

(** * Backends *)
(** The backend modules kymatio/scattering?d/backend/..._backend.py, with the attribute [name] of their class (the same in 1-D, 2-D and 3-D). *)
Definition backend_modules : list (string * string) :=
  [("numpy", "numpy"); ("torch", "torch"); ("torch_skcuda", "torch_skcuda"); ("tensorflow", "tensorflow"); ("jax", "jax")].
(** self.backend: a string, or an object, with its attribute name if it has one. *)
Inductive backend_arg := BackendName (s : string) | BackendObject (name : option string).

(** base_frontend.py 32-50, _instantiate_backend: the name of the backend in use afterwards. *)
Definition instantiate_backend (imports : string -> bool) (frontend_name : string) (b : backend_arg) : res string :=
  match b with
  | BackendName s =>
    if String.prefix frontend_name s then
      match assoc s backend_modules with Some name => if imports s then Ok name else Err ImportError | None => Err ImportError end
    else Err ImportError
  | BackendObject None => Err AttributeError
  | BackendObject (Some name) => if String.prefix frontend_name name then Ok name else Err ImportError
  end.

(** * input_checks *)
(** The objects a user may pass; [is_contiguous] is the answer of the tensor's method. *)
Inductive object := PyNone | NumpyArray | JaxArray | TorchTensor (is_contiguous : bool) | TFTensor | Other.
Definition is_none (x : object) : bool := match x with PyNone => true | _ => false end.
(** backend/numpy_backend.py 11-20: in a static method the name _np is not bound, so that evaluating the second isinstance raises NameError. *)
Definition numpy_input_checks (x : object) : res unit :=
  _ <- raise_if (is_none x) TypeError ;;
  match x with NumpyArray => Ok tt | _ => Err NameError end.
(** backend/jax_backend.py 13-16 *)
Definition jax_input_checks (x : object) : res unit := raise_if (is_none x) TypeError.
(** backend/torch_backend.py 102-107 and contiguous_check 124-127 *)
Definition torch_input_checks (x : object) : res unit :=
  _ <- raise_if (is_none x) TypeError ;;
  match x with TorchTensor c => raise_if (negb c) RuntimeError | _ => Err AttributeError end.
