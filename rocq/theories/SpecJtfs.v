(** Specifications used to state the properties of joint time-frequency scattering; independent of the model. *)
From Coq Require Import ZArith List Bool.
From Verif Require Import Utils1d.
Import ListNotations.
Local Open Scope Z_scope.

(** The frequential filters are described by the list of their (log-scale, spin). *)
Definition spin_at (frs : list (Z * Z)) (n : nat) : Z := snd (nth n frs (0, 0)).
Definition scale_at (frs : list (Z * Z)) (n : nat) : Z := fst (nth n frs (0, 0)).
(** Indices of the frequential filters of non-negative spin. *)
Definition nonneg_spins (frs : list (Z * Z)) : list nat :=
  List.filter (fun n => 0 <=? spin_at frs n) (seq 0 (List.length frs)).
(** First-order indices with a scale smaller than [j2]; second-order indices for which there is one. *)
Definition smaller_scales (j1s : list Z) (j2 : Z) : list nat :=
  List.filter (fun n1 => nth n1 j1s 0 <? j2) (seq 0 (List.length j1s)).
Definition second_orders (j1s j2s : list Z) : list nat :=
  List.filter (fun n2 => existsb (fun j1 => j1 <? nth n2 j2s 0) j1s) (seq 0 (List.length j2s)).

(** Keys with format='joint'. *)
Definition joint_keys (j1s j2s : list Z) (frs : list (Z * Z)) : list (list nat) :=
  [[]] ++ map (fun n => [n]) (nonneg_spins frs) ++
  flat_map (fun n2 => map (fun n => [n2; n]) (seq 0 (List.length frs))) (second_orders j1s j2s).

(** The stride between the labelled rows of a path: after frequency averaging it is the frequency stride
    (local) or the whole range (global); paths of spin 0 are not averaged again. *)
Definition row_stride (a_fr : avg) (ls_fr : Z) (frs : list (Z * Z)) (n : nat) (n1_max : nat) : nat :=
  match a_fr with
  | NoAvg => 2 ^ Z.to_nat (scale_at frs n)
  | Local => if spin_at frs n =? 0 then 2 ^ Z.to_nat (scale_at frs n) else 2 ^ Z.to_nat ls_fr
  | Global => if spin_at frs n =? 0 then 2 ^ Z.to_nat (scale_at frs n) else n1_max
  end.
(** The multiples of [stride] below [n1_max]. *)
Definition labels (n1_max stride : nat) : list nat :=
  List.filter (fun n1 => Nat.eqb (n1 mod stride) 0) (seq 0 n1_max).

(** Keys with format='time'. *)
Definition time_keys (j1s j2s : list Z) (frs : list (Z * Z)) (a_fr : avg) (ls_fr : Z) : list (list nat) :=
  [[]] ++
  flat_map (fun n => map (fun n1 => [n1; n]) (labels (List.length j1s) (row_stride a_fr ls_fr frs n (List.length j1s))))
           (nonneg_spins frs) ++
  flat_map (fun n2 => let m := List.length (smaller_scales j1s (nth n2 j2s 0)) in
              flat_map (fun n => map (fun n1 => [n1; n2; n]) (labels m (row_stride a_fr ls_fr frs n m)))
                       (seq 0 (List.length frs)))
           (second_orders j1s j2s).
