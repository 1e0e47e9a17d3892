(** Model of ScatteringTorch1D and TimeFrequencyScatteringTorch (kymatio/scattering1d/frontend/torch_frontend.py) and of
    ScatteringTorch.forward (kymatio/frontend/torch_frontend.py:13-18). *)
From Coq Require Import String Reals ZArith QArith List Bool Arith.
From Coquelicot Require Import Complex.
From Verif Require Import Base NdArray Backend Core1d Utils1d Frontend1d Factory1d ComplexOps FilterBank1d Construct1d Jtfs JtfsFront JtfsConstruct
  Torch1d TorchModule TorchModuleProofs.
Import ListNotations.
Local Open Scope nat_scope.
Local Open Scope res_scope.

(** torch.from_numpy(level).float().view(-1, 1) of a real array; the rounding to single precision is not modelled. *)
Definition from_numpy (w : nd C) : tensor := mk_t F32 [length (nd_data w); 1] (map fst (nd_data w)) true.

(** A torch.nn.Module: its buffers and its other attributes. *)
Definition module (S : Type) : Type := (store tensor * S)%type.
(** ScatteringTorch1D.__init__ (torch_frontend.py:9-28): as ScatteringNumPy1D, then register_filters. *)
Definition ScatteringTorch1D (support : Z -> Q -> Z) (p : params) (out : string) : res (module (scat1d (obj tensor) R)) :=
  s <- Scattering1D support p out ;;
  let '(s, _, st) := register1d from_numpy s empty_store in Ok (st, s).
(** TimeFrequencyScatteringTorch.__init__ (torch_frontend.py:87-121). *)
Definition TimeFrequencyScatteringTorch (support : Z -> Q -> Z) (p : jparams) (out : string) : res (module (jtfs (obj tensor) R)) :=
  s <- TimeFrequencyScattering support p out ;;
  let '(s, st) := registerj from_numpy s empty_store in Ok (st, s).

(** module.float() and module.double(): a cast of every buffer; to(device) of a module on one device leaves the model
    unchanged.  A buffer that already has the dtype is kept as it is. *)
Definition cast (d : fdtype) (t : tensor) : tensor := mk_t d (t_shape t) (t_data t) (t_contig t).
Inductive op := To (d : fdtype) | Forward (x : tensor).
Definition op_event (st : store tensor) (o : op) : event tensor :=
  match o with
  | To d => Move (fun _ => cast d) (fun k => match sdict_get (st_bufs st) k with Ok o => fdtype_eqb (t_dtype (snd o)) d | Err _ => false end)
  | Forward _ => Call
  end.

(** torch_frontend.py:13-18 forward: input_checks (the input is a tensor), then scattering (torch_frontend.py:78-80). *)
Definition forward1d (m : module (scat1d (obj tensor) R)) (x : tensor) : res (output tensor) :=
  let '(st, s) := m in
  _ <- t_contiguous_check x ;;
  '(s, _) <- load1d st s ;;
  scattering torch_backend (smap snd s) x.
Definition forwardj (m : module (jtfs (obj tensor) R)) (x : tensor) : res (joutput tensor) :=
  let '(st, s) := m in
  _ <- t_contiguous_check x ;;
  s <- loadj st s ;;
  jtfs_scattering torch_backend sgnR (jmap snd s) x.

(** The module after an operation; a call that raises leaves the module with its filters loaded, or untouched if the
    input is rejected. *)
Definition run_op {S} (load : store tensor -> S -> res S) (o : op) (m : module S) : res (module S) :=
  let '(st, s) := m in
  match o with
  | To d => match op_event st (To d) with Move f b => Ok (move f b st, s) | Call => Ok (st, s) end
  | Forward x => if t_contig x then s <- load st s ;; Ok (st, s) else Ok (st, s)
  end.
Fixpoint run_ops {S} (load : store tensor -> S -> res S) (l : list op) (m : module S) : res (module S) :=
  match l with
  | [] => Ok m
  | o :: l => m <- run_op load o m ;; run_ops load l m
  end.
(** The dtype of the buffers after some operations. *)
Definition dtype_after (l : list op) : fdtype := fold_left (fun d o => match o with To d' => d' | Forward _ => d end) l F32.
