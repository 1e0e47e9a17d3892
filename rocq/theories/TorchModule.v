(** Model of the filters of the PyTorch frontends as buffers of a torch.nn.Module
    (kymatio/scattering1d/frontend/torch_frontend.py:30-80, 123-152, kymatio/scattering2d/frontend/torch_frontend.py:23-65,
    kymatio/scattering3d/frontend/torch_frontend.py:25-40, 66-68). *)
From Coq Require Import String ZArith DecimalString List Bool Arith.
From Verif Require Import Base NdArray Backend Core1d Utils1d Frontend1d Jtfs JtfsFront Core2d.
Import ListNotations.
Local Open Scope nat_scope.
Local Open Scope res_scope.

(** A tensor object: its identity and its contents. *)
Definition obj (T : Type) : Type := (nat * T)%type.
(** A module: the next fresh identity, and the dictionary _buffers in insertion order. *)
Record store (T : Type) := mk_store { st_next : nat; st_bufs : list (string * obj T) }.
Arguments mk_store {T}. Arguments st_next {T}. Arguments st_bufs {T}.
Definition empty_store {T} : store T := mk_store 0 [].

(** [str(n)] for a natural number, and the names 'tensor' + str(n). *)
Definition str (n : nat) : string := NilEmpty.string_of_uint (Nat.to_uint n).
Definition tname (n : nat) : string := ("tensor" ++ str n)%string.

(** Python dictionaries with string keys. *)
Fixpoint sdict_set {V} (k : string) (v : V) (d : list (string * V)) : list (string * V) :=
  match d with
  | [] => [(k, v)]
  | (k', v') :: r => if String.eqb k k' then (k', v) :: r else (k', v') :: sdict_set k v r
  end.
Fixpoint sdict_get {V} (d : list (string * V)) (k : string) : res V :=
  match d with
  | [] => Err KeyError
  | (k', v) :: r => if String.eqb k k' then Ok v else sdict_get r k
  end.

(** Module.named_buffers of a module without children: the buffers in insertion order, an object already seen being
    skipped (remove_duplicate=True); [dict] of that sequence. *)
Fixpoint named_buffers {T} (seen : list nat) (l : list (string * obj T)) : list (string * obj T) :=
  match l with
  | [] => []
  | (k, o) :: r => if existsb (Nat.eqb (fst o)) seen then named_buffers seen r
                   else (k, o) :: named_buffers (fst o :: seen) r
  end.
Definition buffer_dict {T} (st : store T) : list (string * obj T) :=
  fold_left (fun d kv => sdict_set (fst kv) (snd kv) d) (named_buffers [] (st_bufs st)) [].

Section Register.
Context {A T P : Type} (conv : A -> T).

(** One step of the loops: a new tensor object, stored under 'tensor' + str(n). *)
Definition register_level (a : A) (n : nat) (st : store T) : obj T * store T :=
  let o : obj T := (st_next st, conv a) in
  (o, mk_store (S (st_next st)) (sdict_set (tname n) o (st_bufs st))).
Fixpoint register_levels (l : list A) (n : nat) (st : store T) : list (obj T) * nat * store T :=
  match l with
  | [] => ([], n, st)
  | a :: r => let '(o, st) := register_level a n st in
              let '(os, n, st) := register_levels r (n + 1) st in
              (o :: os, n, st)
  end.
Definition with_levels {W W'} (f : filter W P) (l : list W') : filter W' P := mk_filter l (f_xi f) (f_sigma f) (f_j f) (f_N f).
Definition register_filter (f : filter A P) (n : nat) (st : store T) : filter (obj T) P * nat * store T :=
  let '(l, n, st) := register_levels (f_levels f) n st in (with_levels f l, n, st).
Fixpoint register_bank (l : list (filter A P)) (n : nat) (st : store T) : list (filter (obj T) P) * nat * store T :=
  match l with
  | [] => ([], n, st)
  | f :: r => let '(f, n, st) := register_filter f n st in
              let '(fs, n, st) := register_bank r n st in
              (f :: fs, n, st)
  end.

Definition with_filters {W W'} (s : scat1d W P) (phi : filter W' P) (psi1 psi2 : list (filter W' P)) : scat1d W' P :=
  {| s_phi := phi; s_psi1 := psi1; s_psi2 := psi2; s_max_order := s_max_order s; s_out_type := s_out_type s;
     s_oversampling := s_oversampling s; s_pad_left := s_pad_left s; s_pad_right := s_pad_right s;
     s_ind_start := s_ind_start s; s_ind_end := s_ind_end s; s_log2_stride := s_log2_stride s; s_average := s_average s |}.
(** scattering1d/frontend/torch_frontend.py:30-56 register_filters. *)
Definition register1d (s : scat1d A P) (st : store T) : scat1d (obj T) P * nat * store T :=
  let n := 0 in
  let '(phi, n, st) := register_filter (s_phi s) n st in
  let '(psi1, n, st) := register_bank (s_psi1 s) n st in
  let '(psi2, n, st) := register_bank (s_psi2 s) n st in
  (with_filters s phi psi1 psi2, n, st).
Definition with_jfilters {W W'} (s : jtfs W P) (b : scat1d W' P) (phi : filter W' P) (psis : list (filter W' P)) : jtfs W' P :=
  {| t_base := b; t_phi_fr := phi; t_psis_fr := psis; t_log2_stride_fr := t_log2_stride_fr s;
     t_average_fr := t_average_fr s; t_format := t_format s |}.
(** torch_frontend.py:123-139 TimeFrequencyScatteringTorch.register_filters. *)
Definition registerj (s : jtfs A P) (st : store T) : jtfs (obj T) P * store T :=
  let '(b, n, st) := register1d (t_base s) st in
  let '(phi, n, st) := register_filter (t_phi_fr s) n st in
  let '(psis, n, st) := register_bank (t_psis_fr s) n st in
  (with_jfilters s b phi psis, st).
(** scattering2d/frontend/torch_frontend.py:23-47: the buffers are registered, self.phi and self.psi keep the NumPy arrays. *)
Fixpoint register_bank2 (l : list (filter2 A)) (n : nat) (st : store T) : nat * store T :=
  match l with
  | [] => (n, st)
  | f :: r => let '(_, n, st) := register_levels (g_levels f) n st in register_bank2 r n st
  end.
Definition register2d (phi : filter2 A) (psi : list (filter2 A)) (st : store T) : store T :=
  let n := 0 in
  let '(_, n, st) := register_levels (g_levels phi) n st in
  let '(n, st) := register_bank2 psi n st in st.
(** scattering3d/frontend/torch_frontend.py:25-40: the filters, then the Gaussian ones under a name of their own. *)
Definition register3d (filters : list A) (gaussian : A) (st : store T) : list (obj T) * obj T * store T :=
  let '(os, _, st) := register_levels filters 0 st in
  let g : obj T := (st_next st, conv gaussian) in
  (os, g, mk_store (S (st_next st)) (sdict_set "tensor_gaussian_filter" g (st_bufs st))).
End Register.

Section Load.
Context {T P : Type}.
Notation dict := (list (string * obj T)).

(** One loop [for level in range(len(levels))]: the previous contents of the levels are not read. *)
Fixpoint load_levels {W} (d : dict) (l : list W) (n : nat) : res (list (obj T) * nat) :=
  match l with
  | [] => Ok ([], n)
  | _ :: r => o <- sdict_get d (tname n) ;;
              '(os, n) <- load_levels d r (n + 1) ;;
              Ok (o :: os, n)
  end.
Definition load_filter {W} (d : dict) (f : filter W P) (n : nat) : res (filter (obj T) P * nat) :=
  '(l, n) <- load_levels d (f_levels f) n ;; Ok (with_levels f l, n).
Fixpoint load_bank {W} (d : dict) (l : list (filter W P)) (n : nat) : res (list (filter (obj T) P) * nat) :=
  match l with
  | [] => Ok ([], n)
  | f :: r => '(f, n) <- load_filter d f n ;;
              '(fs, n) <- load_bank d r n ;;
              Ok (f :: fs, n)
  end.
(** scattering1d/frontend/torch_frontend.py:58-76 load_filters. *)
Definition load1d (st : store T) (s : scat1d (obj T) P) : res (scat1d (obj T) P * nat) :=
  let d := buffer_dict st in
  let n := 0 in
  '(phi, n) <- load_filter d (s_phi s) n ;;
  '(psi1, n) <- load_bank d (s_psi1 s) n ;;
  '(psi2, n) <- load_bank d (s_psi2 s) n ;;
  Ok (with_filters s phi psi1 psi2, n).
(** torch_frontend.py:141-152. *)
Definition loadj (st : store T) (s : jtfs (obj T) P) : res (jtfs (obj T) P) :=
  let d := buffer_dict st in
  '(b, n) <- load1d st (t_base s) ;;
  '(phi, n) <- load_filter d (t_phi_fr s) n ;;
  '(psis, n) <- load_bank d (t_psis_fr s) n ;;
  Ok (with_jfilters s b phi psis).
(** scattering2d/frontend/torch_frontend.py:52-75: new dictionaries, with every other key copied. *)
Definition load_filter2 {W} (d : dict) (f : filter2 W) (n : nat) : res (filter2 (obj T) * nat) :=
  '(l, n) <- load_levels d (g_levels f) n ;; Ok (mk_filter2 l (g_j f) (g_theta f), n).
Fixpoint load_bank2 {W} (d : dict) (l : list (filter2 W)) (n : nat) : res (list (filter2 (obj T)) * nat) :=
  match l with
  | [] => Ok ([], n)
  | f :: r => '(f, n) <- load_filter2 d f n ;;
              '(fs, n) <- load_bank2 d r n ;;
              Ok (f :: fs, n)
  end.
Definition load2d {W} (st : store T) (phi : filter2 W) (psi : list (filter2 W)) : res (filter2 (obj T) * list (filter2 (obj T))) :=
  let d := buffer_dict st in
  '(phis, n) <- load_filter2 d phi 0 ;;
  '(psis, n) <- load_bank2 d psi n ;;
  Ok (phis, psis).
(** scattering3d/frontend/torch_frontend.py:66-68; gaussian_filters is not reloaded. *)
Definition load3d (st : store T) (filters : list (obj T)) : res (list (obj T)) :=
  '(os, _) <- load_levels (buffer_dict st) filters 0 ;; Ok os.

(** What happens to the buffers between two calls.  [Move f inplace]: every buffer is replaced by its image, which may
    depend on its name (Module._apply: to, cuda, float, double; load_state_dict); the buffer object is a new one unless
    [inplace] (the cast is void, or the values are copied into the existing object).  [Call]: scattering() runs load_filters. *)
Inductive event := Move (f : string -> T -> T) (inplace : string -> bool) | Call.
Fixpoint move_buffers (f : string -> T -> T) (inplace : string -> bool) (next : nat) (l : dict) : nat * dict :=
  match l with
  | [] => (next, [])
  | (k, (i, v)) :: r =>
      if inplace k then let '(m, r) := move_buffers f inplace next r in (m, (k, (i, f k v)) :: r)
      else let '(m, r) := move_buffers f inplace (S next) r in (m, (k, (next, f k v)) :: r)
  end.
Definition move (f : string -> T -> T) (inplace : string -> bool) (st : store T) : store T :=
  let '(m, l) := move_buffers f inplace (st_next st) (st_bufs st) in mk_store m l.

(** A history of events on a module whose filters are reloaded by [load]. *)
Fixpoint history {S} (load : store T -> S -> res S) (h : list event) (st : store T) (s : S) : res (store T * S) :=
  match h with
  | [] => Ok (st, s)
  | Move f b :: h => history load h (move f b st) s
  | Call :: h => s <- load st s ;; history load h st s
  end.
End Load.
Arguments event : clear implicits.
