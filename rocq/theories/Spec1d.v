(** Specifications used to state the properties of Scattering1D; independent of the model. *)
From Coq Require Import ZArith List Bool.
Import ListNotations.

(** ** The specification of the path set: small, independent of the generator *)
(** Indices [n2] of the second-order wavelets with a scale larger than [j1]. *)
Definition larger (j1 : Z) (j2s : list Z) : list nat :=
  List.filter (fun n2 => (j1 <? nth n2 j2s 0)%Z) (seq 0 (List.length j2s)).

Definition keys0 : list (list nat) := [[]].
Definition keys1 (j1s : list Z) : list (list nat) := map (fun n1 => [n1]) (seq 0 (List.length j1s)).
Definition keys2 (j1s j2s : list Z) : list (list nat) :=
  flat_map (fun n1 => map (fun n2 => [n1; n2]) (larger (nth n1 j1s 0%Z) j2s)) (seq 0 (List.length j1s)).
Definition expected_keys (max_order : nat) (j1s j2s : list Z) : list (list nat) :=
  keys0 ++ keys1 j1s ++ (if Nat.leb 2 max_order then keys2 j1s j2s else []).

