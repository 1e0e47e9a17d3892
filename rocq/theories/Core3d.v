(** The core of the 3-D scattering transform: kymatio/scattering3d/core/scattering3d.py. *)
From Coq Require Import Reals ZArith List Bool Arith.
From Verif Require Import Base NdArray Backend3d.
Import ListNotations.
Local Open Scope Z_scope.
Local Open Scope res_scope.

(** Python [zip] of the unpacked rows: the columns, up to the length of the shortest row; no row, no column. *)
Definition zip_star {A} (rows : list (list A)) : list (list A) :=
  match rows with
  | [] => []
  | r :: rs =>
      let n := fold_right Nat.min (length r) (map (@length A) rs) in
      map (fun i => concat (map (fun r => match nth_error r i with Some a => [a] | None => [] end) rows)) (seq 0 n)
  end.

Section Core3.
Context {X W : Type} (be : backend3 X W) (filters : list (list (list W))) (rotation_covariant : bool) (averaging : X -> res X).

(** scattering3d.py:32-38: U_1_m after the loop over the components of a filter. *)
Fixpoint rotation_loop (U_c : X) (ws : list W) (m : option X) : res (option X) :=
  match ws with
  | [] => Ok m
  | w :: r =>
      U <- b3_cdgmm3d be U_c w ;;
      U <- b3_ifft be U ;;
      m <- b3_modulus_rotation be U m ;;
      rotation_loop U_c r (Some m)
  end.
(** scattering3d.py:31-41 and 50-60: the wavelet modulus of scale j.  With no component U_1_m stays None, which averaging
    rejects (TypeError). *)
Definition wavelet_modulus (U_c : X) (l j : Z) : res X :=
  fl <- py_index filters l ;;
  ws <- py_index fl j ;;
  if rotation_covariant then
    m <- rotation_loop U_c ws None ;;
    match m with Some m => Ok m | None => Err TypeError end
  else
    w <- py_index ws 0 ;;
    U <- b3_cdgmm3d be U_c w ;;
    U <- b3_ifft be U ;;
    b3_modulus be U.

(** scattering3d.py:50-62: body of the loop over j_2. *)
Definition second3 (l : Z) (U_1_c : X) (j2 : Z) : res X :=
  U_2_m <- wavelet_modulus U_1_c l j2 ;; averaging U_2_m.
(** scattering3d.py:30-62: body of the loop over j_1: S_1_l and the second-order coefficients appended after it. *)
Definition first3 (J max_order l : Z) (U_0_c : X) (j1 : Z) : res (X * list X) :=
  U_1_m <- wavelet_modulus U_0_c l j1 ;;
  S_1 <- averaging U_1_m ;;
  if 1 <? max_order then
    U_1_c <- b3_rfft be U_1_m ;;
    S_2 <- mapM (second3 l U_1_c) (zrange (j1 + 1) (J + 1)) ;;
    Ok (S_1, S_2)
  else Ok (S_1, []).
(** scattering3d.py:28-67: body of the loop over l: s_order_1_l and s_order_2_l. *)
Definition degree3 (J max_order : Z) (U_0_c : X) (l : Z) : res (list X * list X) :=
  ps <- mapM (first3 J max_order l U_0_c) (zrange 0 (J + 1)) ;;
  Ok (map fst ps, concat (map snd ps)).
(** scattering3d.py:1-79 scattering3d. *)
Definition scattering3d (L J max_order : Z) (x : X) : res X :=
  U_0_c <- b3_rfft be x ;;
  ds <- mapM (degree3 J max_order U_0_c) (zrange 0 (L + 1)) ;;
  let S_ := if max_order =? 2 then map (fun d => fst d ++ snd d) ds else map fst ds in
  b3_stack be (concat (zip_star S_)) L.
End Core3.
