(** Correspondence between the NumPy arrays of complex scalars and the torch tensors with a trailing axis, and the
    simulation of every NumPy backend operation by the torch one. *)
From Coq Require Import Reals ZArith List Bool Arith Lia Lra.
From Coquelicot Require Import Complex.
From Verif Require Import Base BaseProofs NdArray Backend ComplexOps NdProofs Construct1d Torch1d.
Import ListNotations.
Local Open Scope nat_scope.
Local Open Scope res_scope.

(** The [c] real numbers (1 or 2) standing for a scalar. *)
Definition enc (c : nat) (z : C) : list R := firstn c [fst z; snd z].
Definition flat (c : nat) (l : list C) : list R := flat_map (enc c) l.

Definition dt (c : nat) : dtype := if Nat.eqb c 1 then Real else Complex.
Definition reals (l : list C) : Prop := Forall (fun z : C => snd z = 0%R) l.

(** [x] with [k] axes, represented by [t] with one more, of length [c] and dtype [d]. *)
Record rep (d : fdtype) (c k : nat) (x : nd C) (t : tensor) : Prop := {
  rp_wf : nd_wf x;
  rp_rank : length (nd_shape x) = k;
  rp_c : c = 1 \/ c = 2;
  rp_dt : nd_dtype x = dt c;
  rp_real : c = 1 -> reals (nd_data x);
  rp_dtype : t_dtype t = d;
  rp_shape : t_shape t = nd_shape x ++ [c];
  rp_data : t_data t = flat c (nd_data x)
}.
Arguments rp_wf {d c k x t}. Arguments rp_rank {d c k x t}. Arguments rp_c {d c k x t}. Arguments rp_dt {d c k x t}.
Arguments rp_real {d c k x t}. Arguments rp_dtype {d c k x t}. Arguments rp_shape {d c k x t}. Arguments rp_data {d c k x t}.
(** Real arrays represented without the trailing axis (before padding and after unpadding). *)
Record plain (d : fdtype) (k : nat) (x : nd C) (t : tensor) : Prop := {
  pl_wf : nd_wf x;
  pl_rank : length (nd_shape x) = k;
  pl_dt : nd_dtype x = Real;
  pl_real : reals (nd_data x);
  pl_dtype : t_dtype t = d;
  pl_shape : t_shape t = nd_shape x;
  pl_data : t_data t = map fst (nd_data x)
}.
Arguments pl_wf {d k x t}. Arguments pl_rank {d k x t}. Arguments pl_dt {d k x t}. Arguments pl_real {d k x t}.
Arguments pl_dtype {d k x t}. Arguments pl_shape {d k x t}. Arguments pl_data {d k x t}.
(** Contiguous representative. *)
Definition crep d c k x t : Prop := rep d c k x t /\ t_contig t = true.

(** Exceptions: the same class, or a shape error, which NumPy raises as ValueError and torch as RuntimeError. *)
Definition exc_rel (e e' : exc) : Prop := e = e' \/ (e = ValueError /\ e' = RuntimeError).
(** Outcomes: torch returns a related value whenever NumPy returns; and raises whenever it raises, if [strict]. *)
Definition sim (strict : bool) {A B} (Rl : A -> B -> Prop) (a : res A) (b : res B) : Prop :=
  match a with
  | Ok x => exists y, b = Ok y /\ Rl x y
  | Err e => strict = true -> exists e', b = Err e' /\ exc_rel e e'
  end.

Lemma sim_ok st {A B} (Rl : A -> B -> Prop) x y : Rl x y -> sim st Rl (Ok x) (Ok y).
Proof. intros H. exists y. auto. Qed.
Lemma sim_err st {A B} (Rl : A -> B -> Prop) e : sim st Rl (Err e) (Err e).
Proof. intros _. exists e. split; [reflexivity|now left]. Qed.
Lemma sim_shape_err st {A B} (Rl : A -> B -> Prop) : sim st Rl (Err ValueError) (Err RuntimeError).
Proof. intros _. exists RuntimeError. split; [reflexivity|now right]. Qed.
Lemma sim_bind st {A B A' B'} (Rl : A -> B -> Prop) (Rl' : A' -> B' -> Prop) a b f g :
  sim st Rl a b -> (forall x y, Rl x y -> sim st Rl' (f x) (g y)) -> sim st Rl' (x <- a ;; f x) (y <- b ;; g y).
Proof.
  intros H K. destruct a as [x|e]; cbn [sim bind] in *.
  - destruct H as (y & -> & Hy). cbn [bind]. apply K, Hy.
  - intros Hs. destruct (H Hs) as (e' & -> & He). exists e'. split; [reflexivity|exact He].
Qed.
Lemma sim_same st {A} (a : res A) : sim st eq a a.
Proof. destruct a; [now apply sim_ok|apply sim_err]. Qed.
Lemma sim_mapM st {A A' B B'} (Rl : A -> A' -> Prop) (Rl' : B -> B' -> Prop) f g l l' :
  Forall2 Rl l l' -> (forall x y, Rl x y -> sim st Rl' (f x) (g y)) -> sim st (Forall2 Rl') (mapM f l) (mapM g l').
Proof.
  intros H K. induction H as [|x y l l' Hx H IH]; cbn [mapM].
  - apply sim_ok. constructor.
  - eapply sim_bind; [apply K, Hx|]. intros u v Huv. eapply sim_bind; [exact IH|]. intros us vs Hus.
    apply sim_ok. now constructor.
Qed.
Lemma sim_weaken st {A B} (R1 R2 : A -> B -> Prop) a b : (forall x y, R1 x y -> R2 x y) -> sim st R1 a b -> sim st R2 a b.
Proof. intros H S. destruct a; cbn in *; [|exact S]. destruct S as (y & E & Hy). eauto. Qed.
Lemma sim_py_index st {A B} (Rl : A -> B -> Prop) l l' i : Forall2 Rl l l' -> sim st Rl (py_index l i) (py_index l' i).
Proof.
  intros H. unfold py_index. rewrite <- (Forall2_len _ _ _ H). cbv zeta.
  set (i' := if (i <? 0)%Z then (i + Z.of_nat (length l))%Z else i). destruct (i' <? 0)%Z; [apply sim_err|].
  destruct (nth_error l (Z.to_nat i')) as [a|] eqn:E.
  - destruct (Forall2_nth_error_l _ _ _ _ _ H E) as (b & -> & Hb). now apply sim_ok.
  - apply nth_error_None in E. rewrite (Forall2_len _ _ _ H) in E. apply nth_error_None in E. rewrite E. apply sim_err.
Qed.

(** ** Lists of scalars *)
Lemma enc_length c z : c <= 2 -> length (enc c z) = c.
Proof. intros H. unfold enc. rewrite firstn_length. cbn. lia. Qed.
Lemma flat_length c l : c <= 2 -> length (flat c l) = length l * c.
Proof.
  intros H. induction l as [|z l IH]; [reflexivity|]. unfold flat in *. cbn [flat_map].
  rewrite app_length, enc_length, IH by exact H. cbn [length]. lia.
Qed.
Lemma flat_app c a b : flat c (a ++ b) = flat c a ++ flat c b.
Proof. apply flat_map_app. Qed.
Lemma flat_concat c ls : flat c (concat ls) = concat (map (flat c) ls).
Proof. induction ls as [|l ls IH]; [reflexivity|]. cbn [concat map]. now rewrite flat_app, IH. Qed.
Lemma flat_1 l : flat 1 l = map fst l.
Proof. induction l as [|z l IH]; [reflexivity|]. unfold flat in *. cbn [flat_map map]. now rewrite IH. Qed.
Lemma flat_2 l : flat 2 l = to_pairs l.
Proof. reflexivity. Qed.
Lemma of_flat l : of_pairs (flat 2 l) = l.
Proof. induction l as [|[a b] l IH]; [reflexivity|]. unfold flat in *. cbn. now rewrite IH. Qed.
Lemma of_pairs_real l : reals l -> of_pairs (flat_map (fun a => [a; 0%R]) (map fst l)) = l.
Proof.
  intros H. induction H as [|[a b] l Hz H IH]; [reflexivity|]. cbn in *. now rewrite IH, Hz.
Qed.
Lemma flat_skipn c n l : c <= 2 -> skipn (n * c) (flat c l) = flat c (skipn n l).
Proof.
  intros H. revert l. induction n as [|n IH]; intros l; [reflexivity|].
  destruct l as [|z l]; [now rewrite !skipn_nil|]. cbn [skipn]. rewrite <- IH. unfold flat at 1. cbn [flat_map].
  rewrite Nat.mul_succ_l, Nat.add_comm. rewrite skipn_app. rewrite (skipn_all2 (enc c z)) by (rewrite enc_length; lia).
  rewrite enc_length by exact H. cbn [app]. f_equal. lia.
Qed.
Lemma flat_firstn c n l : c <= 2 -> firstn (n * c) (flat c l) = flat c (firstn n l).
Proof.
  intros H. revert l. induction n as [|n IH]; intros l; [reflexivity|].
  destruct l as [|z l]; [now rewrite !firstn_nil|]. cbn [firstn]. unfold flat at 1 2. cbn [flat_map].
  rewrite Nat.mul_succ_l, Nat.add_comm. rewrite firstn_app. rewrite (firstn_all2 (enc c z)) by (rewrite enc_length; lia).
  rewrite enc_length by exact H. f_equal. unfold flat in IH. rewrite <- IH. f_equal. lia.
Qed.
Lemma flat_chunks c m n l : c <= 2 -> chunks m (n * c) (flat c l) = map (flat c) (chunks m n l).
Proof.
  intros H. revert l. induction m as [|m IH]; intros l; [reflexivity|]. cbn [chunks map].
  now rewrite flat_firstn, flat_skipn, IH by exact H.
Qed.
Lemma map_chunks {A B} (f : A -> B) m n l : chunks m n (map f l) = map (map f) (chunks m n l).
Proof. revert l. induction m as [|m IH]; intros l; [reflexivity|]. cbn [chunks map]. now rewrite firstn_map, skipn_map, IH. Qed.
Lemma nth_flat2 q e l : e < 2 -> nth (q * 2 + e) (flat 2 l) 0%R = nth e [fst (nth q l (RtoC 0)); snd (nth q l (RtoC 0))] 0%R.
Proof.
  intros He. revert l. induction q as [|q IH]; intros l.
  - destruct e as [|[|]]; [| |lia]; destruct l as [|z l]; reflexivity.
  - destruct l as [|z l].
    + destruct e as [|[|]]; [reflexivity|reflexivity|lia].
    + change (nth (S q) (z :: l) (RtoC 0)) with (nth q l (RtoC 0)). rewrite <- IH. reflexivity.
Qed.
Lemma map_seq_pairs {A} (g : nat -> A) m : map g (seq 0 (m * 2)) = flat_map (fun i => [g (i * 2 + 0); g (i * 2 + 1)]) (seq 0 m).
Proof.
  induction m as [|m IH]; [reflexivity|]. rewrite (seq_S m 0), flat_map_app, Nat.mul_succ_l, seq_app, map_app, IH. f_equal.
  cbn. now rewrite Nat.add_0_r, Nat.add_1_r.
Qed.

Lemma fst_osum l : fst (osum complex_ops l) = osum real_ops (map fst l).
Proof. induction l as [|z l IH]; [reflexivity|]. unfold osum in *. cbn [map fold_right]. rewrite <- IH. reflexivity. Qed.
Lemma snd_osum l : snd (osum complex_ops l) = osum real_ops (map snd l).
Proof. induction l as [|z l IH]; [reflexivity|]. unfold osum in *. cbn [map fold_right]. rewrite <- IH. reflexivity. Qed.
Lemma fst_divn z n : 0 < n -> fst (o_divn complex_ops z n) = (fst z / INR n)%R.
Proof. intros H. apply lt_0_INR in H. destruct z as [a b]. cbn. field. lra. Qed.
Lemma snd_divn z n : 0 < n -> snd (o_divn complex_ops z n) = (snd z / INR n)%R.
Proof. intros H. apply lt_0_INR in H. destruct z as [a b]. cbn. field. lra. Qed.

(** ** Rows *)
Lemma periodize_flat k m row : 0 < k ->
  periodize_row real_ops k (m * 2) (flat 2 row) = flat 2 (periodize_row complex_ops k m row).
Proof.
  intros Hk. unfold periodize_row. rewrite map_seq_pairs. unfold flat at 3. rewrite flat_map_concat_map, (flat_map_concat_map (enc 2)), map_map.
  f_equal. apply map_ext. intros i. unfold enc. cbn [firstn]. f_equal; [|f_equal].
  - rewrite fst_divn, fst_osum, map_map by exact Hk. cbn [o_divn o_zero real_ops complex_ops]. f_equal. f_equal. apply map_ext. intros r.
    replace (r * (m * 2) + (i * 2 + 0)) with ((r * m + i) * 2 + 0) by lia. now rewrite nth_flat2 by lia.
  - rewrite snd_divn, snd_osum, map_map by exact Hk. cbn [o_divn o_zero real_ops complex_ops]. f_equal. f_equal. apply map_ext. intros r.
    replace (r * (m * 2) + (i * 2 + 1)) with ((r * m + i) * 2 + 1) by lia. now rewrite nth_flat2 by lia.
Qed.
Lemma mul_row_flat B row : reals B -> cdgmm_real_row (map fst B) (flat 2 row) = flat 2 (mul_row complex_ops B row).
Proof.
  intros HB. unfold cdgmm_real_row, mul_row. rewrite of_flat. revert row.
  induction HB as [|[b b'] B Hb HB IH]; intros [|[x y] row]; try reflexivity. cbn [map combine flat_map].
  unfold flat in *. cbn [flat_map]. rewrite IH. cbn in Hb. subst b'. unfold enc. cbn. f_equal; [ring|]. f_equal. ring.
Qed.
Lemma mul_row_flat_complex B row : cdgmm_complex_row (flat 2 B) (flat 2 row) = flat 2 (mul_row complex_ops B row).
Proof.
  unfold cdgmm_complex_row, mul_row. rewrite !of_flat. revert row.
  induction B as [|[b b'] B IH]; intros [|[x y] row]; try reflexivity. cbn [map combine flat_map].
  unfold flat in *. cbn [flat_map]. rewrite IH. unfold enc. cbn. reflexivity.
Qed.
Lemma pad_reflect_fst l r n row : pad_reflect_row real_ops l r n (map fst row) = map fst (pad_reflect_row complex_ops l r n row).
Proof.
  unfold pad_reflect_row. rewrite map_map. apply map_ext. intros p. cbn [o_zero real_ops complex_ops].
  change 0%R with (fst (RtoC 0)). now rewrite map_nth.
Qed.
Lemma slice_map {A B} (f : A -> B) a b l : slice a b (map f l) = map f (slice a b l).
Proof. unfold slice. now rewrite skipn_map, firstn_map. Qed.
Lemma flat_repeat c n : c <= 2 -> flat c (repeat (RtoC 0) n) = repeat 0%R (n * c).
Proof.
  intros Hc. induction n as [|n IH]; [reflexivity|]. cbn [repeat]. unfold flat in *. cbn [flat_map]. rewrite IH.
  rewrite Nat.mul_succ_l, Nat.add_comm, repeat_app. f_equal. destruct c as [|[|[|]]]; [reflexivity|reflexivity|reflexivity|lia].
Qed.
Lemma pad_zero_flat c r row : c <= 2 -> pad_zero_row real_ops (r * c) (flat c row) = flat c (pad_zero_row complex_ops r row).
Proof. intros Hc. unfold pad_zero_row. rewrite flat_app. cbn [o_zero real_ops complex_ops]. now rewrite flat_repeat. Qed.
Lemma nth_cell c l q : c <= 2 -> q < length l -> firstn c (skipn (q * c) (flat c l)) = enc c (nth q l (RtoC 0)).
Proof.
  intros Hc Hq. rewrite flat_skipn by exact Hc. rewrite <- (Nat.mul_1_l c) at 1. rewrite flat_firstn by exact Hc.
  revert l Hq. induction q as [|q IH]; intros [|z l] Hq; cbn [length] in Hq; try lia.
  - cbn. now rewrite app_nil_r.
  - cbn [skipn nth]. apply IH. lia.
Qed.
Lemma transpose_flat a b c l : c <= 2 -> length l = a * b ->
  transpose_cells a b c (flat c l) = flat c (transpose_block complex_ops a b l).
Proof.
  intros Hc Hl. unfold transpose_cells, transpose_block. rewrite flat_concat, map_map. f_equal. apply map_ext_in. intros j Hj.
  unfold flat at 2. rewrite flat_map_concat_map, map_map. f_equal. apply map_ext_in. intros i Hi.
  apply in_seq in Hi, Hj. apply nth_cell; [exact Hc|]. nia.
Qed.

Lemma reals_in l : reals l <-> forall z, In z l -> snd z = 0%R.
Proof. apply Forall_forall. Qed.
Lemma chunks_In {A} m n (l : list A) r x : In r (chunks m n l) -> In x r -> In x l.
Proof.
  revert l. induction m as [|m IH]; intros l; cbn [chunks]; [intros []|]. intros [<-|H] Hx.
  - revert Hx. generalize l. clear. induction n as [|n IH]; intros [|a l]; cbn [firstn]; intros H; try contradiction.
    destruct H as [->|H]; [now left|right; auto].
  - specialize (IH _ H Hx). rewrite <- (firstn_skipn n l). apply in_or_app. now right.
Qed.
Lemma reals_rows m n l f : reals l -> (forall r, reals r -> reals (f r)) -> reals (concat (map f (chunks m n l))).
Proof.
  intros H K. apply reals_in. intros z Hz. apply in_concat in Hz as (r' & Hr & Hz). apply in_map_iff in Hr as (r & <- & Hr).
  assert (G : reals (f r)). { apply K. apply reals_in. intros y Hy. apply (proj1 (reals_in l) H). eapply chunks_In; eassumption. }
  now apply (proj1 (reals_in _) G).
Qed.
Lemma map_rows_wf d n' f pre n (x : nd C) : nd_wf x -> nd_shape x = pre ++ [n] ->
  (forall r : list C, length r = n -> length (f r) = n') -> nd_wf (map_rows d n' f pre n x).
Proof.
  intros Hw Hs Hf. unfold nd_wf in *. cbn [map_rows nd_data nd_shape]. rewrite prod_snoc.
  rewrite Hs, prod_snoc in Hw. destruct (chunks_ok (prod pre) n (nd_data x) Hw) as (L & F & _).
  rewrite (concat_len n').
  - rewrite map_length. now rewrite L.
  - apply Forall_map. eapply Forall_impl; [|exact F]. intros r Hr. now apply Hf.
Qed.
