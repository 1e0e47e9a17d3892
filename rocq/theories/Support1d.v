(** Model of compute_temporal_support (kymatio/scattering1d/filter_bank.py:142-196) over the real numbers. *)
From Coq Require Import Reals ZArith List Bool Lia Lra QArith Qreals.
From Coquelicot Require Import Complex.
From Verif Require Import Base NdArray ComplexOps Dft Conv1d FilterBank1d.
Import ListNotations.
Local Open Scope R_scope.

(** numpy.cumsum, starting from [acc]. *)
Fixpoint cumsum (acc : R) (l : list R) : list R :=
  match l with [] => [] | a :: r => (acc + a) :: cumsum (acc + a) r end.
(** filter_bank.py:180-184: the row of l1_residual of a filter given in Fourier; fliplr reverses the row. *)
Definition l1_residual (half_support : nat) (h_f : list C) : list R :=
  rev (cumsum 0 (rev (firstn half_support (map Cmod (idft h_f))))).
(** np.max(rows, axis=0), of a first row and the others. *)
Definition column_max (r : list R) (rs : list (list R)) : list R :=
  fold_left (fun a b => map (fun p => Rmax (fst p) (snd p)) (combine a b)) rs r.
(** np.min(np.where(l <= eps)[0]), None if there is no such index. *)
Fixpoint first_le (eps : R) (l : list R) : option nat :=
  match l with
  | [] => None
  | a :: r => if Rle_dec a eps then Some O else option_map S (first_le eps r)
  end.
(** filter_bank.py:142-196 compute_temporal_support; [n] is h_f.shape[1] and [h_f] the list of rows.  ifft refuses rows of
    length zero and np.max refuses an empty axis, with ValueError.  The warning is dropped. *)
Definition compute_temporal_support (n : nat) (h_f : list (list C)) (criterion_amplitude : R) : res Z :=
  if Nat.eqb n 0 then Err ValueError else
  match map (l1_residual (n / 2)) h_f with
  | [] => Err ValueError
  | r :: rs => match first_le criterion_amplitude (column_max r rs) with
               | Some k => Ok (Z.of_nat k + 1)%Z
               | None => Ok (Z.of_nat (n / 2))
               end
  end.

(** base_frontend.py:83-85: the support computed by [build], of which min_to_pad is three times; [build] takes it as a
    parameter.  (An exception, only possible for N <= 0, is mapped to 0.) *)
Definition support1d (N : Z) (T : Q) : Z :=
  match compute_temporal_support (Z.to_nat N) [nd_data (gauss_1d (Z.to_nat N) (sigma0 / Q2R T))] (1 / 1000) with
  | Ok v => v | Err _ => 0%Z
  end.

(** ** Proofs *)
(** Mass of [h] between the instants [a] included and [b] excluded. *)
Definition mass (h : list C) (a b : nat) : R := rsum (b - a) (fun i => Cmod (at_ h (a + i))).

Lemma cumsum_length l : forall acc, length (cumsum acc l) = length l.
Proof. induction l as [|a l IH]; intros acc; cbn; [reflexivity|]. now rewrite IH. Qed.
Lemma cumsum_nth l : forall acc k, (k < length l)%nat -> nth k (cumsum acc l) 0 = acc + rsum (S k) (fun i => nth i l 0).
Proof.
  assert (F : forall n (f : nat -> R), rsum (S n) f = f O + rsum n (fun i => f (S i))).
  { induction n as [|n IH]; intros f; [cbn; lra|]. change (rsum (S (S n)) f) with (rsum (S n) f + f (S n)). rewrite IH. cbn [rsum]. lra. }
  induction l as [|a l IH]; intros acc k Hk; cbn [length] in Hk; [lia|]. rewrite F. cbn [nth cumsum]. destruct k as [|k].
  - cbn. lra.
  - cbn [nth]. rewrite IH by lia. lra.
Qed.
Lemma rsum_rev n f : rsum n (fun i => f (n - 1 - i)%nat) = rsum n f.
Proof.
  assert (F : forall n (f : nat -> R), rsum (S n) f = f O + rsum n (fun i => f (S i))).
  { induction n0 as [|m IH]; intros g; [cbn; lra|]. change (rsum (S (S m)) g) with (rsum (S m) g + g (S m)). rewrite IH. cbn [rsum]. lra. }
  assert (X : forall n (f g : nat -> R), (forall i, (i < n)%nat -> f i = g i) -> rsum n f = rsum n g).
  { induction n0 as [|m IH]; intros g g' H; cbn; [reflexivity|]. rewrite (IH g g') by (intros; apply H; lia). rewrite H by lia. reflexivity. }
  revert f. induction n as [|n IH]; intros f; [reflexivity|]. rewrite F. cbn [rsum].
  replace (S n - 1 - 0)%nat with n by lia. rewrite <- (IH f). rewrite Rplus_comm. f_equal. apply X. intros i Hi. f_equal. lia.
Qed.
Lemma rsum_eq n (f g : nat -> R) : (forall i, (i < n)%nat -> f i = g i) -> rsum n f = rsum n g.
Proof. induction n as [|n IH]; intros H; cbn; [reflexivity|]. rewrite IH by (intros; apply H; lia). rewrite H by lia. reflexivity. Qed.

Lemma residual_length half h_f : (half <= length h_f)%nat -> length (l1_residual half h_f) = half.
Proof. intros H. unfold l1_residual. rewrite rev_length, cumsum_length, rev_length, firstn_length, map_length, idft_length. lia. Qed.
(** fliplr(cumsum(fliplr(...))) sums the tail. *)
Lemma residual_nth half h_f k : (half <= length h_f)%nat -> (k < half)%nat -> nth k (l1_residual half h_f) 0 = mass (idft h_f) k half.
Proof.
  intros Hh Hk. set (m := map Cmod (idft h_f)).
  assert (Lm : length (firstn half m) = half) by (unfold m; rewrite firstn_length, map_length, idft_length; lia).
  unfold l1_residual. fold m. rewrite rev_nth by (rewrite cumsum_length, rev_length; lia). rewrite cumsum_length, rev_length, Lm.
  rewrite cumsum_nth by (rewrite rev_length; lia). rewrite Rplus_0_l. replace (S (half - S k)) with (half - k)%nat by lia.
  unfold mass. rewrite <- (rsum_rev (half - k) (fun i => Cmod (at_ (idft h_f) (k + i)))). apply rsum_eq. intros i Hi.
  rewrite rev_nth by lia. rewrite Lm.
  assert (E : forall j, (j < half)%nat -> nth j (firstn half m) 0 = Cmod (at_ (idft h_f) j)).
  { intros j Hj. rewrite <- (firstn_skipn half m) in *. rewrite firstn_skipn in *.
    transitivity (nth j m 0).
    - rewrite <- (firstn_skipn half m) at 2. rewrite app_nth1 by lia. reflexivity.
    - unfold m, at_. rewrite <- Cmod_0 at 1. apply map_nth. }
  rewrite E by lia. do 2 f_equal. lia.
Qed.

Lemma first_le_spec eps l : match first_le eps l with
  | Some k => (k < length l)%nat /\ nth k l 0 <= eps /\ forall i, (i < k)%nat -> eps < nth i l 0
  | None => forall i, (i < length l)%nat -> eps < nth i l 0 end.
Proof.
  induction l as [|a l IH]; cbn [first_le]; [cbn; intros; lia|].
  destruct (Rle_dec a eps) as [H|H]; [cbn; split; [lia|]; split; [exact H|intros; lia]|].
  destruct (first_le eps l) as [k|]; cbn [option_map length].
  - destruct IH as (H1 & H2 & H3). cbn [nth]. split; [lia|]. split; [exact H2|]. intros [|i] Hi; [lra|apply H3; lia].
  - intros [|i] Hi; cbn [nth]; [lra|apply IH; lia].
Qed.
Lemma column_max_spec n rs : forall r, length r = n -> Forall (fun q => length q = n) rs ->
  length (column_max r rs) = n /\
  forall k eps, (k < n)%nat -> (nth k (column_max r rs) 0 <= eps <-> forall q, In q (r :: rs) -> nth k q 0 <= eps).
Proof.
  induction rs as [|b rs IH]; intros r Hr H.
  - cbn. split; [exact Hr|]. intros k eps Hk. split; [intros Hx q [<-|[]]; exact Hx|intros Hx; apply Hx; now left].
  - inversion H as [|b' rs' Hb Hrs]; subst b' rs'. cbn [column_max fold_left].
    set (c := map _ _). assert (Lc : length c = n) by (unfold c; rewrite map_length, combine_length; lia).
    destruct (IH c Lc Hrs) as [I1 I2]. split; [exact I1|]. intros k eps Hk. rewrite (I2 k eps Hk).
    assert (E : nth k c 0 = Rmax (nth k r 0) (nth k b 0)).
    { unfold c. transitivity ((fun p : R * R => Rmax (fst p) (snd p)) (nth k (combine r b) (0, 0))).
      - rewrite <- (map_nth (fun p : R * R => Rmax (fst p) (snd p))). apply nth_indep. rewrite map_length, combine_length. lia.
      - rewrite combine_nth by lia. reflexivity. }
    split.
    + intros G q [<-|[<-|Hq]].
      * eapply Rle_trans; [apply Rmax_l|]. rewrite <- E. apply G. now left.
      * eapply Rle_trans; [apply Rmax_r|]. rewrite <- E. apply G. now left.
      * apply G. now right.
    + intros G q [<-|Hq].
      * rewrite E. apply Rmax_lub; apply G; [now left|right; now left].
      * apply G. right. now right.
Qed.
