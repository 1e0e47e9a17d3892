(** Common vocabulary: Python exceptions as values, the error monad used for every modelled
    function, Python indexing, ranges, slices, the numeric result of [2**k], and stable sorting. *)
From Coq Require Import ZArith List Bool Lia QArith Qround.
Import ListNotations.
Local Open Scope Z_scope.

(** Python exception classes that the modelled code can raise. *)
Inductive exc :=
| ValueError | TypeError | IndexError | KeyError | RuntimeError | NotImplementedError
| AssertionError | ImportError | NameError | AttributeError | ZeroDivisionError.

(** A Python computation: a value, or an exception. *)
Inductive res (A : Type) : Type :=
| Ok (a : A)
| Err (e : exc).
Arguments Ok {A} a.
Arguments Err {A} e.

Definition bind {A B} (m : res A) (f : A -> res B) : res B :=
  match m with Ok a => f a | Err e => Err e end.

Declare Scope res_scope.
Delimit Scope res_scope with res.
Notation "x <- e ;; k" := (bind e (fun x => k))
  (at level 61, e at next level, right associativity) : res_scope.
Notation "' p <- e ;; k" := (bind e (fun p => k))
  (at level 61, p pattern, e at next level, right associativity) : res_scope.
Open Scope res_scope.

Definition is_ok {A} (r : res A) : bool := match r with Ok _ => true | Err _ => false end.

(** [raise e if b]: the statement [if b: raise e]. *)
Definition raise_if (b : bool) (e : exc) : res unit := if b then Err e else Ok tt.

(** A [for] loop building a list, aborted by the first exception. *)
Fixpoint mapM {A B} (f : A -> res B) (l : list A) : res (list B) :=
  match l with
  | [] => Ok []
  | x :: r => y <- f x ;; ys <- mapM f r ;; Ok (y :: ys)
  end.

(** Python [seq[i]] for an integer [i]: negative indices count from the end, IndexError outside. *)
Definition py_index {A} (l : list A) (i : Z) : res A :=
  let n := Z.of_nat (length l) in
  let i' := if i <? 0 then i + n else i in
  if i' <? 0 then Err IndexError
  else match nth_error l (Z.to_nat i') with
       | Some a => Ok a
       | None => Err IndexError
       end.

(** Python [range(a, b)]. *)
Definition zrange (a b : Z) : list Z :=
  map (fun k => a + Z.of_nat k) (seq 0 (Z.to_nat (b - a))).

(** [enumerate(l)]. *)
Fixpoint enum_from {A} (i : nat) (l : list A) : list (nat * A) :=
  match l with [] => [] | x :: r => (i, x) :: enum_from (S i) r end.
Definition enumerate {A} (l : list A) : list (nat * A) := enum_from 0 l.

(** The value of [2**k] for an integer [k]: an int if [k >= 0], otherwise a float.  The float is
    only ever used as a size, where Python raises TypeError, so its value is not kept. *)
Inductive pynum := PInt (z : Z) | PFloat.
Definition pow2 (k : Z) : pynum := if k <? 0 then PFloat else PInt (2 ^ k).

(** Slice [l[a:b]] with [0 <= a], [0 <= b]: bounds are clipped to the length, as in Python.
    (Negative bounds count from the end; the only slices taken by the modelled code with possibly
    negative bounds are modelled separately.) *)
Definition slice {A} (a b : nat) (l : list A) : list A := firstn (b - a) (skipn a l).

(** Python's [sorted(l, key=...)] is stable; a stable sort is determined by its specification, so
    insertion sort is a faithful model of its result.  [le] compares keys. *)
Fixpoint insert {A} (le : A -> A -> bool) (x : A) (l : list A) : list A :=
  match l with
  | [] => [x]
  | y :: r => if le x y then x :: l else y :: insert le x r
  end.
Fixpoint isort {A} (le : A -> A -> bool) (l : list A) : list A :=
  match l with [] => [] | x :: r => insert le x (isort le r) end.

(** Lexicographic comparison of tuples of integers, as Python compares tuples. *)
Fixpoint lex_leb (a b : list nat) : bool :=
  match a, b with
  | [], _ => true
  | _ :: _, [] => false
  | x :: a', y :: b' => if Nat.ltb x y then true else if Nat.ltb y x then false else lex_leb a' b'
  end.
