(** Model of the CUDA kernels of the torch_skcuda backends and of their launches
    (kymatio/scattering1d/backend/torch_skcuda_backend.py, kymatio/scattering2d/backend/torch_skcuda_backend.py), in exact real
    arithmetic for the floating-point values and 32-bit arithmetic for the indices. *)
From Coq Require Import Reals ZArith List Bool.
From Coquelicot Require Import Complex.
From Verif Require Import Base NdArray Backend Torch1d.
Import ListNotations.
Local Open Scope Z_scope.
Local Open Scope res_scope.

(** C code with undefined behaviour: [None] when undefined (signed overflow, access outside of a buffer). *)
Definition obind {A B} (m : option A) (f : A -> option B) : option B := match m with Some a => f a | None => None end.
Notation "x <~ e ;; k" := (obind e (fun x => k)) (at level 61, e at next level, right associativity).
(** A result of type [int]. *)
Definition int32 (z : Z) : option Z := if (- 2 ^ 31 <=? z) && (z <? 2 ^ 31) then Some z else None.
(** buf[p] *)
Definition load {V} (buf : list V) (p : Z) : option V := if p <? 0 then None else nth_error buf (Z.to_nat p).

(** blockIdx / threadIdx / gridDim / blockDim: ((x, y), z). *)
Definition dim3 : Type := Z * Z * Z.
Definition dx (d : dim3) : Z := fst (fst d).
Definition dy (d : dim3) : Z := snd (fst d).
Definition dz (d : dim3) : Z := snd d.
Definition range (n : Z) : list Z := map Z.of_nat (seq 0 (Z.to_nat n)).
Definition indices (d : dim3) : list dim3 := list_prod (list_prod (range (dx d)) (range (dy d))) (range (dz d)).
(** The threads of a launch, each with its block index and its index in the block; their order is not specified. *)
Definition threads (grid block : dim3) : list (dim3 * dim3) := list_prod (indices grid) (indices block).

(** A thread returns without writing, or writes one value at one address of the output. *)
Fixpoint run_threads {V} (body : dim3 * dim3 -> option (option (Z * V))) (ts : list (dim3 * dim3)) : option (list (Z * V)) :=
  match ts with
  | [] => Some []
  | t :: ts => w <~ body t ;; ws <~ run_threads body ts ;; Some (match w with Some w => w :: ws | None => ws end)
  end.
(** The grid sizes that the CUDA driver accepts; cupy raises CUDADriverError, a RuntimeError, for others. *)
Definition grid_ok (g : dim3) : bool :=
  (1 <=? dx g) && (dx g <? 2 ^ 31) && (1 <=? dy g) && (dy g <=? 65535) && (1 <=? dz g) && (dz g <=? 65535).
(** A call of a kernel: an exception, undefined behaviour ([Ok None]), or the list of all writes. *)
Definition launch {V} (grid block : dim3) (body : dim3 * dim3 -> option (option (Z * V))) : res (option (list (Z * V))) :=
  if grid_ok grid then Ok (run_threads body (threads grid block)) else Err RuntimeError.

(** The contents of the output after some writes, in this order; torch.empty gives arbitrary initial contents. *)
Fixpoint set_nth {V} (n : nat) (v : V) (l : list V) : list V :=
  match l, n with
  | [], _ => []
  | _ :: l, O => v :: l
  | a :: l, S n => a :: set_nth n v l
  end.
Definition store {V} (ws : list (Z * V)) (buf : list V) : list V := fold_left (fun b w => set_nth (Z.to_nat (fst w)) (snd w) b) ws buf.

(** get_blocks / GET_BLOCKS: 1-D :61-62 and :123-124, 2-D :64-65 and :147-148. *)
Definition get_blocks (n nthreads : Z) : Z := (n + nthreads - 1) / nthreads.

(** int tx = blockIdx.x * blockDim.x + threadIdx.x (the operands are unsigned, the result is converted to int). *)
Definition thread_x (block : dim3) (t : dim3 * dim3) : option Z := int32 (dx (fst t) * dx block + dx (snd t)).
Definition thread_y (block : dim3) (t : dim3 * dim3) : option Z := int32 (dy (fst t) * dy block + dy (snd t)).
Definition thread_z (block : dim3) (t : dim3 * dim3) : option Z := int32 (dz (fst t) * dz block + dz (snd t)).

(** Entries [0, k) of a loop, with the accumulator [acc]. *)
Fixpoint c_for {A} (k : nat) (i : Z) (step : Z -> A -> option A) (acc : A) : option A :=
  match k with
  | O => Some acc
  | S k => a <~ step i acc ;; c_for k (i + 1) step a
  end.

(** ** The modulus kernel: 1-D :72-84, 2-D :156-166 abs_complex_value.  x is a buffer of pairs; normf(2, x + 2*i) is the
    Euclidean norm of the pair [i].  For single precision only: with double the kernel does not compile (normf takes a
    pointer to float). *)
Definition abs_complex_value (block : dim3) (x : list C) (n : Z) (t : dim3 * dim3) : option (option (Z * R)) :=
  i <~ thread_x block t ;;
  if i >=? n then Some None
  else
    _ <~ int32 (2 * i) ;;
    c <~ load x i ;;
    if i <? 0 then None else Some (Some (i, modulus_forward (fst c) (snd c))).

(** 1-D :64-89, 2-D :150-172: Modulus.__call__ behind the checks of modulus (1-D :173-194, 2-D :178-182).  The tensors are on
    a GPU.  A call returns the shape of the output and the writes. *)
Definition cuda_modulus (x : tensor) : res (list nat * option (list (Z * R))) :=
  _ <- t_contiguous_check x ;;
  _ <- t_complex_check x ;;
  '(pre, _) <- split_last (t_shape x) ;;
  let n := Z.of_nat (prod (pre ++ [1%nat])) in
  let block := (1024, 1, 1) in
  ws <- launch (get_blocks n 1024, 1, 1) block (abs_complex_value block (of_pairs (t_data x)) n) ;;
  Ok ((pre ++ [1%nat])%list, ws).

(** ** The 1-D periodization kernel: 1-D :133-156.  NT is replaced textually by T / k, without parentheses, so that i * NT is
    (i * T) / k and ty * NT + tx is (ty * T) / k + tx. *)
Definition periodize1 (block : dim3) (B T k : Z) (input : list C) (t : dim3 * dim3) : option (option (Z * C)) :=
  tx <~ thread_x block t ;;
  ty <~ thread_y block t ;;
  if (tx >=? Z.quot T k) || (ty >=? B) then Some None
  else
    tyT <~ int32 (ty * T) ;;
    off <~ int32 (tyT + tx) ;;
    res <~ c_for (Z.to_nat k) 0 (fun i res =>
             iT <~ int32 (i * T) ;;
             c <~ load input (off + Z.quot iT k) ;;
             Some (Cplus res c)) (RtoC 0) ;;
    addr <~ int32 (Z.quot tyT k + tx) ;;
    if addr <? 0 then None else Some (Some (addr, (fst res / IZR k, snd res / IZR k)%R)).

(** 1-D :126-166 SubsampleFourier.__call__ behind the checks of subsample_fourier (:196-222), with k >= 1; [B], [T] and
    the grid are computed as in the code whatever the number of axes.  x.shape[2] raises IndexError when missing. *)
Definition cuda_subsample1 (x : tensor) (k : nat) : res (list nat * option (list (Z * C))) :=
  _ <- t_contiguous_check x ;;
  _ <- t_complex_check x ;;
  '(pre, n, c) <- split_pair (t_shape x) ;;
  if Nat.eqb k 0 then Err ZeroDivisionError
  else
    let out := (pre ++ [n / k; c])%nat in
    match t_shape x with
    | b0 :: b1 :: T :: _ =>
        let B := Z.of_nat (b0 * b1) in
        let block := (1024, 1, 1) in
        if Nat.eqb (n / k) 0 then Err ZeroDivisionError
        else
          ws <- launch (get_blocks (Z.of_nat (n / k)) 1024, get_blocks (Z.of_nat (prod out / (2 * (n / k)))) 1, 1) block
                  (periodize1 block B (Z.of_nat T) (Z.of_nat k) (of_pairs (t_data x))) ;;
          Ok (out, ws)
    | _ => Err IndexError
    end.

(** ** The 2-D periodization kernel: 2-D :78-101.  NW and NH are replaced textually by W / k and H / k. *)
Definition periodize2 (block : dim3) (B H W k : Z) (input : list C) (t : dim3 * dim3) : option (option (Z * C)) :=
  tx <~ thread_x block t ;;
  ty <~ thread_y block t ;;
  tz <~ thread_z block t ;;
  if (tx >=? Z.quot W k) || (ty >=? Z.quot H k) || (tz >=? B) then Some None
  else
    tzH <~ int32 (tz * H) ;;
    tzHW <~ int32 (tzH * W) ;;
    tyW <~ int32 (ty * W) ;;
    s <~ int32 (tzHW + tyW) ;;
    off <~ int32 (s + tx) ;;
    res <~ c_for (Z.to_nat k) 0 (fun j res =>
             c_for (Z.to_nat k) 0 (fun i res =>
               jH <~ int32 (j * H) ;;
               a <~ int32 (Z.quot jH k * W) ;;
               iW <~ int32 (i * W) ;;
               p <~ int32 (a + Z.quot iW k) ;;
               c <~ load input (off + p) ;;
               Some (Cplus res c)) res) (RtoC 0) ;;
    kk <~ int32 (k * k) ;;
    (* tz * H / k * W / k + ty * W / k + tx *)
    a <~ int32 (Z.quot tzH k * W) ;;
    s <~ int32 (Z.quot a k + Z.quot tyW k) ;;
    addr <~ int32 (s + tx) ;;
    if addr <? 0 then None else Some (Some (addr, (fst res / IZR kk, snd res / IZR kk)%R)).

(** Last three axes. *)
Definition split_image (s : list nat) : res (list nat * nat * nat * nat) :=
  match rev s with
  | c :: w :: h :: r => Ok (rev r, h, w, c)
  | _ => Err IndexError
  end.
(** 2-D :67-115 SubsampleFourier.__call__ behind the checks of subsample_fourier (:184-188), with k >= 1.  x.view((-1,) +
    signal_shape) has prod(batch_shape) images (it raises RuntimeError when an image has no pixel).  The grid takes out.shape[1],
    the height, for x and out.shape[2], the width, for y. *)
Definition cuda_subsample2 (x : tensor) (k : nat) : res (list nat * option (list (Z * C))) :=
  _ <- t_contiguous_check x ;;
  _ <- t_complex_check x ;;
  '(pre, h, w, c) <- split_image (t_shape x) ;;
  if Nat.eqb (h * w) 0 then Err RuntimeError
  else if Nat.eqb k 0 then Err ZeroDivisionError
  else
    let B := Z.of_nat (prod pre) in
    let block := (32, 32, 1) in
    ws <- launch (get_blocks (Z.of_nat (h / k)) 32, get_blocks (Z.of_nat (w / k)) 32, get_blocks B 1) block
            (periodize2 block B (Z.of_nat h) (Z.of_nat w) (Z.of_nat k) (of_pairs (t_data x))) ;;
    Ok ((pre ++ [h / k; w / k; c])%nat, ws).

(** ** The PyTorch counterpart in 2-D: kymatio/scattering2d/backend/torch_backend.py:92-130 subsample_fourier:
    view(-1, k, H//k, k, W//k, 2).mean(3).mean(1); when the sizes do not match, [view] or the final [reshape] raises
    RuntimeError (except with no image at all, where they match as soon as H//k and W//k are positive). *)
Definition t_subsample2 (x : tensor) (k : nat) : res tensor :=
  _ <- t_contiguous_check x ;;
  _ <- t_complex_check x ;;
  '(pre, h, w, c) <- split_image (t_shape x) ;;
  if Nat.eqb (h * w) 0 then Err RuntimeError
  else if Nat.eqb k 0 then Err ZeroDivisionError
  else
    let h' := (h / k)%nat in
    let w' := (w / k)%nat in
    if (Nat.eqb (k * h') h && Nat.eqb (k * w') w) || (Nat.eqb (prod pre) 0 && negb (Nat.eqb (h' * w') 0)) then
      Ok (mk_t (t_dtype x) (pre ++ [h'; w'; 2%nat])
            (concat (map (fun image =>
                periodize_row real_ops k (h' * w' * 2)
                  (concat (map (periodize_row real_ops k (w' * 2)) (chunks (k * h') (k * w' * 2) image))))
              (chunks (prod pre) (h * w * 2) (t_data x)))) true)
    else Err RuntimeError.
