(** What a coefficient of the joint time-frequency scattering transform should be, written with circular convolutions
    along time and along log-frequency, sample by sample and without reference to the way the code computes it. *)
From Coq Require Import Reals ZArith List Bool.
From Coquelicot Require Import Complex.
From Verif Require Import Base NdArray Core1d Utils1d Rows1d ComplexOps Dft Conv1d.
Import ListNotations.
Local Open Scope nat_scope.

Section Spec.
Context {P : Type}.
Notation filter := (Core1d.filter (nd C) P).
(** The filters of the object; time is averaged as [a] says and sampled every [2^ls], log-frequency as [af] says and
    sampled every [2^lsf]; [Nfr] padded frequency bins. *)
Variables (phi : filter) (psi1 : list filter) (ls : Z) (a : avg).
Variables (phi_fr : filter) (Nfr : nat) (lsf : Z) (af : avg).

(** Rate at which |x * psi1| is sampled, as a power of two. *)
Definition rate1 (f1 : filter) : Z := match a with Local => Z.min (f_j f1) ls | _ => f_j f1 end.
Definition U1 (f1 : filter) (x : list C) : list C := sampled_envelope x (lev f1 0) (2 ^ Z.to_nat (rate1 f1)).

(** First order: the rows are |x * psi1| * phi sampled every [2^ls], one row for each first-order wavelet. *)
Definition rows1 (x : list C) : list (list C) :=
  map (fun f1 => sampled_lowpass (U1 f1 x) (lev phi (rate1 f1)) (2 ^ Z.to_nat (ls - rate1 f1))) psi1.
(** Second order: the rows are |x * psi1| * psi2 sampled every [2^j2], one row for each psi1 of a smaller scale. *)
Definition sampled_conv (x w : list C) (k : nat) : list C :=
  map (fun u => cconv x (idft w) (Z.of_nat (k * u))) (seq 0 (length x / k)).
Definition rows2 (f2 : filter) (x : list C) : list (list C) :=
  map (fun f1 => sampled_conv (U1 f1 x) (lev f2 (rate1 f1)) (2 ^ Z.to_nat (f_j f2 - rate1 f1)))
      (List.filter (fun f1 => (f_j f1 <? f_j f2)%Z) psi1).

(** Column [u] of such rows, extended with zeros to [Nfr] frequency bins. *)
Definition column (rows : list (list C)) (u : nat) : list C :=
  map (fun n1 => at_ (nth n1 rows []) u) (seq 0 Nfr).
(** |rows * psi_fr| along the columns, at frequency bin [p] and time [u]. *)
Definition joint_modulus (rows : list (list C)) (psi : filter) (p u : nat) : C :=
  RtoC (Cmod (cconv (column rows u) (idft (lev psi 0)) (Z.of_nat p))).

(** Averaging in time of a row, of which [j2 = Some j] says that it is sampled every [2^j] and still to be averaged. *)
Definition time_average (j2 : option Z) (row : list C) : list C :=
  match a, j2 with
  | Global, _ => [csum (length row) (at_ row)]
  | Local, Some j => sampled_lowpass row (lev phi j) (2 ^ Z.to_nat (ls - j))
  | _, _ => row
  end.
(** Averaging in frequency of a column, sampled every [2^j]. *)
Definition freq_average (j : Z) (col : list C) : list C :=
  match af with
  | Global => [csum (length col) (at_ col)]
  | Local => sampled_lowpass col (lev phi_fr j) (2 ^ Z.to_nat (lsf - j))
  | NoAvg => col
  end.

(** Row [r] of the joint modulus, sampled every [2^kf] in frequency, then averaged in time. *)
Definition averaged_row (j2 : option Z) (rows : list (list C)) (psi : filter) (kf : Z) (c r : nat) : list C :=
  time_average j2 (map (fun u => joint_modulus rows psi (2 ^ Z.to_nat kf * r) u) (seq 0 c)).
(** The coefficient in row [r] and at time [v]: a lowpass frequential filter (spin 0) needs no averaging in frequency. *)
Definition joint_value (j2 : option Z) (rows : list (list C)) (psi : filter) (spin kf : Z) (c r v : nat) : C :=
  if (spin =? 0)%Z then at_ (averaged_row j2 rows psi kf c r) v
  else at_ (freq_average kf (map (fun p => at_ (averaged_row j2 rows psi kf c p) v) (seq 0 (Nfr / 2 ^ Z.to_nat kf)))) r.
(** Number of rows available for a coefficient. *)
Definition freq_rows (spin kf : Z) : nat :=
  if (spin =? 0)%Z then Nfr / 2 ^ Z.to_nat kf
  else match af with
       | Local => Nfr / 2 ^ Z.to_nat kf / 2 ^ Z.to_nat (lsf - kf)
       | Global => 1
       | NoAvg => Nfr / 2 ^ Z.to_nat kf
       end.

(** The coefficient at frequency bin [n1] rather than in a given row: the averaged joint modulus at bin [n1]; or, with
    averaging in frequency, the lowpass of the averaged joint moduli (known every [2^kf] bins) at bin [n1]; or their sum. *)
Definition joint_at (j2 : option Z) (rows : list (list C)) (psi : filter) (spin kf : Z) (c n1 v : nat) : C :=
  let at_bin b := at_ (time_average j2 (map (fun u => joint_modulus rows psi b u) (seq 0 c))) v in
  let bins := map (fun p => at_bin (2 ^ Z.to_nat kf * p)) (seq 0 (Nfr / 2 ^ Z.to_nat kf)) in
  if (spin =? 0)%Z then at_bin n1
  else match af with
       | Local => RtoC (Re (cconv bins (idft (lev phi_fr kf)) (Z.of_nat (n1 / 2 ^ Z.to_nat kf))))
       | Global => csum (length bins) (at_ bins)
       | NoAvg => at_bin n1
       end.
End Spec.
