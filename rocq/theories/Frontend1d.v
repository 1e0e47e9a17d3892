(** Model of the run-time part of ScatteringBase1D (kymatio/scattering1d/frontend/base_frontend.py). *)
From Coq Require Import ZArith List Bool String.
From Verif Require Import Base NdArray Backend Core1d Utils1d.
Import ListNotations.
Local Open Scope Z_scope.
Local Open Scope res_scope.

(** The attributes read by scattering(), meta() and output_size().  [s_log2_stride] and [s_average] are
    properties that may raise. *)
Record scat1d (W P : Type) := {
  s_phi : filter W P; s_psi1 : list (filter W P); s_psi2 : list (filter W P);
  s_max_order : Z; s_out_type : string; s_oversampling : oval;
  s_pad_left : Z; s_pad_right : Z; s_ind_start : list Z; s_ind_end : list Z;
  s_log2_stride : res Z; s_average : res avg
}.
Arguments s_phi {W P}. Arguments s_psi1 {W P}. Arguments s_psi2 {W P}. Arguments s_max_order {W P}.
Arguments s_out_type {W P}. Arguments s_oversampling {W P}. Arguments s_pad_left {W P}.
Arguments s_pad_right {W P}. Arguments s_ind_start {W P}. Arguments s_ind_end {W P}.
Arguments s_log2_stride {W P}. Arguments s_average {W P}.

(** base_frontend.py:223-230 _check_runtime_args. *)
Definition check_runtime_args {W P} (s : scat1d W P) : res unit :=
  if existsb (String.eqb (s_out_type s)) ["array"; "dict"; "list"]%string then
    a <- s_average s ;;
    raise_if ((match a with NoAvg => true | _ => false end) && String.eqb (s_out_type s) "array"%string)
             ValueError
  else Err ValueError.

(** base_frontend.py:232-237 _check_input. *)
Definition check_input (shape : list nat) : res unit :=
  raise_if (Nat.ltb (List.length shape) 1) ValueError.

(** A dictionary as an association list in insertion order; assignment overwrites in place. *)
Fixpoint dict_set {X} (k : list nat) (v : X) (d : list (list nat * X)) : list (list nat * X) :=
  match d with
  | [] => [(k, v)]
  | (k', v') :: r => if list_eq_dec Nat.eq_dec k k' then (k, v) :: r else (k', v') :: dict_set k v r
  end.
Fixpoint dict_lookup {X} (k : list nat) (d : list (list nat * X)) : option X :=
  match d with
  | [] => None
  | (k', v) :: r => if list_eq_dec Nat.eq_dec k k' then Some v else dict_lookup k r
  end.

(** The sort key (order, n) of base_frontend.py:150 and 187: order is len(n). *)
Definition key_leb (a b : list nat) : bool :=
  if Nat.ltb (List.length a) (List.length b) then true
  else if Nat.ltb (List.length b) (List.length a) then false
  else lex_leb a b.

Inductive output (X : Type) :=
| OutArray (x : X)
| OutList (l : list (path X))
| OutDict (d : list (list nat * X)).
Arguments OutArray {X}. Arguments OutList {X}. Arguments OutDict {X}.

(** [filters = [phi, psi1, psi2][:(1+max_order)]] for [max_order >= 0] (base_frontend.py:116, 184). *)
Definition psis_of {W P} (s : scat1d W P) : list (list (filter W P)) :=
  firstn (Z.to_nat (s_max_order s)) [s_psi1 s; s_psi2 s].

Section Run.
Context {X W P : Type} (be : backend X W).

(** base_frontend.py:126-142: post-processing of one path. *)
Definition finish_path (s : scat1d W P) (a : avg) (batch_shape : list nat) (p : path X) : res (path X) :=
  let order := List.length (p_n p) in
  resol <- (match a with
          | Local => s_log2_stride s
          | _ => if Nat.ltb 0 order then
                   j <- py_index (p_j p) (-1) ;;
                   match s_oversampling s with
                   | OInt k => Ok (Z.max (j - k) 0)
                   | _ => Err TypeError          (* int - None *)
                   end
                 else Ok 0
          end) ;;
  c <- (match a with
        | Global => be_average_global be (p_coef p)
        | _ => i0 <- dict_get (s_ind_start s) resol ;;
               i1 <- dict_get (s_ind_end s) resol ;;
               be_unpad be (p_coef p) i0 i1
        end) ;;
  c <- be_reshape_output be c batch_shape 1 ;;
  Ok (mk_path c (p_j p) (p_n p)).

(** base_frontend.py:106-155 scattering. *)
Definition scattering (s : scat1d W P) (x : X) : res (output X) :=
  _ <- check_runtime_args s ;;
  _ <- check_input (be_shape be x) ;;
  '(batch_shape, n) <- split_last (be_shape be x) ;;
  x <- be_reshape_input be x [n] ;;
  U_0 <- be_pad be x (s_pad_left s) (s_pad_right s) ;;
  log2_stride <- s_log2_stride s ;;
  a <- s_average s ;;
  gen <- scattering1d be U_0 (s_phi s) (psis_of s) log2_stride
           (match a with Local => true | _ => false end) ;;
  S <- mapM (finish_path s a batch_shape) gen ;;
  if String.eqb (s_out_type s) "dict"%string then
    Ok (OutDict (fold_left (fun d p => dict_set (p_n p) (p_coef p) d) S []))
  else
    let S := isort (fun p q => key_leb (p_n p) (p_n q)) S in
    if String.eqb (s_out_type s) "array"%string then
      arr <- be_stack be (map p_coef S) (-2) ;; Ok (OutArray arr)
    else Ok (OutList S).
End Run.

(** ** meta() *)
(** One row of the 2-D metadata arrays; NaN is [None]. *)
Record meta1d (P : Type) := {
  m_order : list nat;
  m_key : list (list nat);
  m_n : list (list (option nat));
  m_xi : list (list (option P));
  m_sigma : list (list (option P));
  m_j : list (list (option Z))
}.
Arguments m_order {P}. Arguments m_key {P}. Arguments m_n {P}. Arguments m_xi {P}.
Arguments m_sigma {P}. Arguments m_j {P}.

(** base_frontend.py:190-191: [np.append(n, (nan,)*(max_order-len(n)))]. *)
Definition meta_n_row (max_order : Z) (n : list nat) : list (option nat) :=
  map Some n ++ repeat None (Z.to_nat (max_order - Z.of_nat (List.length n))).

(** base_frontend.py:194-199: the three nested loops filling meta[key].  [meta[key]] starts as NaN
    everywhere with the shape of meta['n']; the cell (row, order) receives psi[key] for every n equal to
    meta['n'][row, order]. *)
Definition set_column {B} (order : nat) (n : nat) (v : B) (nrow : list (option nat))
    (row : list (option B)) : list (option B) :=
  map (fun c : nat * (option nat * option B) =>
         let '(i, (cell_n, cell)) := c in
         if Nat.eqb i order then
           match cell_n with
           | Some m => if Nat.eqb m n then Some v else cell
           | None => cell
           end
         else cell)
      (enumerate (combine nrow row)).
Definition meta_row {W P B} (get : filter W P -> B) (filterbanks : list (list (filter W P)))
    (nrow : list (option nat)) : list (option B) :=
  fold_left (fun row (of : nat * list (filter W P)) =>
      fold_left (fun row (npsi : nat * filter W P) =>
          set_column (fst of) (fst npsi) (get (snd npsi)) nrow row)
        (enumerate (snd of)) row)
    (enumerate filterbanks) (map (fun _ => None) nrow).

(** base_frontend.py:157-202 meta. *)
Definition meta {W P} (s : scat1d W P) : res (meta1d P) :=
  log2_stride <- s_log2_stride s ;;
  gen <- scattering1d (dry_backend W) tt (s_phi s) (psis_of s) log2_stride false ;;
  let S := isort (fun p q => key_leb (p_n p) (p_n q)) gen in
  let keys := map p_n S in
  let ns := map (meta_n_row (s_max_order s)) keys in
  let fbs := firstn (Z.to_nat (s_max_order s)) [s_psi1 s; s_psi2 s] in
  Ok {| m_order := map (@List.length nat) keys; m_key := keys; m_n := ns;
        m_xi := map (meta_row f_xi fbs) ns;
        m_sigma := map (meta_row f_sigma fbs) ns;
        m_j := map (meta_row f_j fbs) ns |}.

(** collections.Counter: counts in order of first occurrence. *)
Fixpoint counter_add (x : nat) (c : list (nat * nat)) : list (nat * nat) :=
  match c with
  | [] => [(x, 1%nat)]
  | (y, k) :: r => if Nat.eqb x y then (y, S k) :: r else (y, k) :: counter_add x r
  end.
Definition counter (l : list nat) : list (nat * nat) := fold_left (fun c x => counter_add x c) l [].

(** base_frontend.py:204-221 output_size. *)
Definition output_size {W P} (s : scat1d W P) : res nat := m <- meta s ;; Ok (List.length (m_key m)).
Definition output_size_detail {W P} (s : scat1d W P) : res (list nat) :=
  m <- meta s ;; Ok (map snd (counter (m_order m))).
