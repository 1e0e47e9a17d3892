(** Model of the numpy ndarrays and numpy/scipy functions used by the code: a dtype class, a shape and
    the row-major list of entries.  Parametric in the scalar type. *)
From Coq Require Import ZArith List Bool Arith.
From Verif Require Import Base.
Import ListNotations.
Local Open Scope res_scope.

(** The dtype classes distinguished by the code (kymatio/backend/numpy_backend.py:32-38): float32/float64,
    complex64/complex128, anything else (integers, bool, ...). *)
Inductive dtype := Real | Complex | OtherT.

Record nd (K : Type) := mk_nd { nd_dtype : dtype; nd_shape : list nat; nd_data : list K }.
Arguments mk_nd {K}.
Arguments nd_dtype {K}.
Arguments nd_shape {K}.
Arguments nd_data {K}.

Definition prod (s : list nat) : nat := fold_right Nat.mul 1 s.
Definition nd_wf {K} (x : nd K) : Prop := length (nd_data x) = prod (nd_shape x).

(** Split off the last axis; [x.shape[-1]] raises IndexError on a rank-0 array. *)
Definition split_last (s : list nat) : res (list nat * nat) :=
  match rev s with
  | [] => Err IndexError
  | n :: r => Ok (rev r, n)
  end.

(** The first [m] consecutive blocks of length [n] of [l]. *)
Fixpoint chunks {A} (m n : nat) (l : list A) : list (list A) :=
  match m with
  | O => []
  | S m' => firstn n l :: chunks m' n (skipn n l)
  end.

(** Scalar operations.  [o_fft] and [o_ifft] act on one row. *)
Record ops (K : Type) := {
  o_zero : K;
  o_add : K -> K -> K;
  o_mul : K -> K -> K;
  o_divn : K -> nat -> K;        (* division by a positive integer, in mean() *)
  o_abs : K -> K;                (* numpy.abs *)
  o_re : K -> K;                 (* .real *)
  o_fft : list K -> list K;      (* numpy.fft.fft of one row *)
  o_ifft : list K -> list K      (* scipy.fft.ifft of one row *)
}.
Arguments o_zero {K}. Arguments o_add {K}. Arguments o_mul {K}. Arguments o_divn {K}.
Arguments o_abs {K}. Arguments o_re {K}. Arguments o_fft {K}. Arguments o_ifft {K}.

Section Nd.
Context {K : Type} (o : ops K).

(** Apply [f] to every row along the last axis (new row length [n']), with result dtype [d]. *)
Definition map_rows (d : dtype) (n' : nat) (f : list K -> list K) (pre : list nat) (n : nat)
    (x : nd K) : nd K :=
  mk_nd d (pre ++ [n']) (concat (map f (chunks (prod pre) n (nd_data x)))).

(** [x.reshape(s)] with all entries of [s] known. *)
Definition reshape (s : list nat) (x : nd K) : res (nd K) :=
  if Nat.eqb (prod s) (prod (nd_shape x)) then Ok (mk_nd (nd_dtype x) s (nd_data x))
  else Err ValueError.

(** [x.reshape((-1,) + s)]. *)
Definition reshape_infer (s : list nat) (x : nd K) : res (nd K) :=
  let p := prod s in
  let t := prod (nd_shape x) in
  if Nat.eqb p 0 then Err ValueError
  else if Nat.eqb (t mod p) 0 then Ok (mk_nd (nd_dtype x) (t / p :: s) (nd_data x))
  else Err ValueError.

(** Sum of a list of scalars. *)
Definition osum (l : list K) : K := fold_right (o_add o) (o_zero o) l.

(** One row of [y = row.reshape(k, m); y.mean(axis=0)], with [k*m = len(row)]. *)
Definition periodize_row (k m : nat) (row : list K) : list K :=
  map (fun i => o_divn o (osum (map (fun r => nth (r * m + i) row (o_zero o)) (seq 0 k))) k)
      (seq 0 m).

(** Same with a sum (np.sum) instead of a mean; used for filter levels. *)
Definition periodize_sum_row (k m : nat) (row : list K) : list K :=
  map (fun i => osum (map (fun r => nth (r * m + i) row (o_zero o)) (seq 0 k))) (seq 0 m).

(** numpy.pad(..., mode='reflect') on one row of length [n], [l, r < n]: position [p] of the padded row
    (starting [l] samples before the row) reads the row at the reflected index. *)
Definition reflect_index (n : nat) (i : Z) : nat :=
  let n := Z.of_nat n in
  Z.to_nat (if (i <? 0)%Z then (- i)%Z else if (i <? n)%Z then i else (2 * (n - 1) - i)%Z).
Definition pad_reflect_row (l r n : nat) (row : list K) : list K :=
  map (fun p => nth (reflect_index n (Z.of_nat p - Z.of_nat l)) row (o_zero o)) (seq 0 (l + n + r)).

(** numpy.pad(..., mode='constant') on the right of one row. *)
Definition pad_zero_row (r : nat) (row : list K) : list K := row ++ repeat (o_zero o) r.

(** Pointwise product of every row with a row [b]. *)
Definition mul_row (b row : list K) : list K := map (fun ab => o_mul o (fst ab) (snd ab)) (combine row b).

(** numpy.stack(arrays, axis) for an axis already normalised to a position [p]. *)
Definition stack_at (p : nat) (l : list (nd K)) : res (nd K) :=
  match l with
  | [] => Err ValueError
  | x :: _ =>
      let s := nd_shape x in
      if Nat.ltb (length s) p then Err ValueError                     (* AxisError *)
      else if forallb (fun y => if list_eq_dec Nat.eq_dec (nd_shape y) s then true else false) l then
        let outer := prod (firstn p s) in
        let inner := prod (skipn p s) in
        Ok (mk_nd (nd_dtype x) (firstn p s ++ length l :: skipn p s)
              (concat (map (fun i => concat (map (fun y => firstn inner (skipn (i * inner) (nd_data y))) l))
                           (seq 0 outer))))
      else Err ValueError
  end.
(** numpy.stack(arrays, axis=dim), negative [dim] counted from the end of the result. *)
Definition stack (l : list (nd K)) (dim : Z) : res (nd K) :=
  match l with
  | [] => Err ValueError
  | x :: _ =>
      let p := if (dim <? 0)%Z then (dim + Z.of_nat (length (nd_shape x)) + 1)%Z else dim in
      if (p <? 0)%Z then Err ValueError else stack_at (Z.to_nat p) l
  end.

(** Transposition of one [a x b] block (row-major). *)
Definition transpose_block (a b : nat) (l : list K) : list K :=
  concat (map (fun j => map (fun i => nth (i * b + j) l (o_zero o)) (seq 0 a)) (seq 0 b)).
End Nd.
