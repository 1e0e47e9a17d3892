(** kymatio/caching.py: the cache directory of the datasets.

    Strings are lists of characters and paths follow POSIX (posixpath.py of the Python standard library and the system calls
    stat and mkdir), without symbolic links.  A file system is a map from absolute locations (lists of names, innermost first) to the
    kind of the entry, together with the working directory and the locations where the process may create a directory.
    No other process changes the file system during a call. *)
From Coq Require Import Ascii String List Bool Arith Lia.
Import ListNotations.
Local Open Scope list_scope.

Definition str := list ascii.
Definition lit (s : string) : str := list_ascii_of_string s.
Definition str_eqb (a b : str) : bool := if list_eq_dec ascii_dec a b then true else false.
Definition slash : ascii := "/"%char.
Definition is_slash (c : ascii) : bool := Ascii.eqb c slash.

Fixpoint drop_while {A} (f : A -> bool) (l : list A) : list A := match l with [] => [] | a :: r => if f a then drop_while f r else l end.
Fixpoint take_while {A} (f : A -> bool) (l : list A) : list A := match l with [] => [] | a :: r => if f a then a :: take_while f r else [] end.
(** str.rstrip('/') *)
Definition rstrip_slash (p : str) : str := rev (drop_while is_slash (rev p)).
Definition ends_with_slash (p : str) : bool := match rev p with c :: _ => is_slash c | [] => false end.
Definition starts_with_slash (p : str) : bool := match p with c :: _ => is_slash c | [] => false end.

(** os.path.join of two strings (posixpath.join). *)
Definition join (a b : str) : str :=
  if starts_with_slash b then b else if (match a with [] => true | _ => false end) || ends_with_slash a then a ++ b else a ++ slash :: b.
(** os.path.split (posixpath.split): the tail is what follows the last slash; the head loses its trailing slashes unless it consists of slashes. *)
Definition split (p : str) : str * str :=
  let tail := rev (take_while (fun c => negb (is_slash c)) (rev p)) in
  let head := rev (drop_while (fun c => negb (is_slash c)) (rev p)) in
  ((if forallb is_slash head then head else rstrip_slash head), tail).
(** p.split('/') *)
Fixpoint components (p : str) : list str :=
  match p with
  | [] => [[]]
  | c :: r => if is_slash c then [] :: components r else match components r with h :: t => (c :: h) :: t | [] => [[c]] end
  end.

Inductive kind := File | Dir.
Definition location := list str.
Record fs := mk_fs { fs_entry : location -> option kind; fs_cwd : location; fs_may_create : location -> bool }.

Definition is_dir (s : fs) (q : location) : bool := match fs_entry s q with Some Dir => true | _ => false end.
Definition dot := lit ".". Definition dotdot := lit "..".
Definition step (q : location) (c : str) : location :=
  if str_eqb c [] || str_eqb c dot then q else if str_eqb c dotdot then tl q else c :: q.
(** Path resolution: every component is looked up in a directory. *)
Fixpoint walk (s : fs) (q : location) (cs : list str) : option location :=
  match cs with [] => Some q | c :: r => if is_dir s q then walk s (step q c) r else None end.
Definition start (s : fs) (p : str) : location := if starts_with_slash p then [] else fs_cwd s.
Definition resolve (s : fs) (p : str) : option location := match p with [] => None | _ => walk s (start s p) (components p) end.
(** os.path.exists, os.path.isdir *)
Definition entry_at (s : fs) (p : str) : option kind := match resolve s p with Some q => fs_entry s q | None => None end.
Definition path_exists (s : fs) (p : str) : bool := match entry_at s p with Some _ => true | None => false end.

Inductive os_error := FileExists | OtherOSError.
(** os.mkdir: trailing slashes are ignored, the parent must be a directory, and the last component must name nothing. *)
Definition add_dir (s : fs) (q : location) : fs :=
  mk_fs (fun q' => if list_eq_dec (list_eq_dec ascii_dec) q' q then Some Dir else fs_entry s q') (fs_cwd s) (fs_may_create s).
Definition mkdir (s : fs) (p : str) : fs * option os_error :=
  match p with
  | [] => (s, Some OtherOSError)
  | _ =>
    match drop_while (fun c => str_eqb c []) (rev (components p)) with
    | [] => (s, Some FileExists)
    | c :: r =>
      match walk s (start s p) (rev r) with
      | None => (s, Some OtherOSError)
      | Some d =>
        if negb (is_dir s d) then (s, Some OtherOSError)
        else if str_eqb c dot || str_eqb c dotdot then (s, Some FileExists)
        else match fs_entry s (c :: d) with
             | Some _ => (s, Some FileExists)
             | None => if fs_may_create s (c :: d) then (add_dir s (c :: d), None) else (s, Some OtherOSError)
             end
      end
    end
  end.

(** os.makedirs(name) (os.py), exist_ok=False; the recursion is on a prefix of the name, hence [fuel]. *)
Fixpoint makedirs (fuel : nat) (s : fs) (p : str) : fs * option os_error :=
  match fuel with
  | O => (s, Some OtherOSError)
  | S fuel =>
    let '(head, tail) := split p in
    let '(head, tail) := match tail with [] => split head | _ => (head, tail) end in
    if negb (str_eqb head []) && negb (str_eqb tail []) && negb (path_exists s head) then
      match makedirs fuel s head with
      | (s', Some OtherOSError) => (s', Some OtherOSError)
      | (s', _) => if str_eqb tail dot then (s', None) else mkdir s' p
      end
    else mkdir s p
  end.

(** os.environ and the password database. *)
Record environment := mk_env { env_get : str -> option str; pw_dir : option str }.
(** os.path.expanduser("~") (posixpath.py) *)
Definition expanduser (e : environment) : str :=
  match env_get e (lit "HOME") with
  | Some h => match rstrip_slash h with [] => [slash] | h' => h' end
  | None => match pw_dir e with Some h => match rstrip_slash h with [] => [slash] | h' => h' end | None => lit "~" end
  end.

(** caching.py 4-28, find_cache_base_dir(cache_base_dir=None) *)
Definition find_cache_base_dir (e : environment) (cache_base_dir : option str) : str :=
  match cache_base_dir with
  | None => match env_get e (lit "KYMATIO_CACHE") with
            | None => join (expanduser e) (lit "kymatio_cache")
            | Some kymatio_cache => kymatio_cache
            end
  | Some d => d
  end.

Inductive outcome := Path (p : str) | NoDirectory (* ValueError *) | Failed (err : os_error).
(** caching.py 31-63, get_cache_dir(name="", cache_base_dir=None, create=True), with the file system after the call. *)
Definition get_cache_dir (e : environment) (s : fs) (name : str) (cache_base_dir : option str) (create : bool) : fs * outcome :=
  let path := join (find_cache_base_dir e cache_base_dir) name in
  if path_exists s path then (s, Path path)
  else if create then
    match makedirs (S (List.length path)) s path with
    | (s', None) => (s', Path path)
    | (s', Some err) => (s', Failed err)
    end
  else (s, NoDirectory).
