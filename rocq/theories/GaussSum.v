(** The integral of exp(-r^2/2) from zero: its growth over a step, and a numerical bound. *)
From Coq Require Import Reals Arith Lia Lra Psatz.
From Coquelicot Require Import Coquelicot.
From Verif Require Import GaussIntegral.
Local Open Scope R_scope.

Definition half_gauss (t : R) : R := RInt (gk 0) 0 t.
Lemma half_gauss_0 : half_gauss 0 = 0.
Proof. unfold half_gauss. now rewrite RInt_point. Qed.
Lemma half_gauss_derive u : derivable_pt_lim half_gauss u (gk 0 u).
Proof.
  apply is_derive_Reals. apply (is_derive_RInt (gk 0) _ 0); [|apply gk_cont]. apply filter_forall. intros b. apply int_correct, gk_int.
Qed.
Lemma half_gauss_step z h : 0 <= z -> 0 < h -> h * exp (- ((z + h) ^ 2) / 2) <= half_gauss (z + h) - half_gauss z.
Proof.
  intros Hz Hh. destruct (MVT_cor2 half_gauss (gk 0) z (z + h) ltac:(lra) (fun c _ => half_gauss_derive c)) as (c & -> & Hc).
  replace (z + h - z) with h by ring. rewrite Rmult_comm. apply Rmult_le_compat_r; [lra|]. unfold gk. rewrite pow_O, Rmult_1_l.
  destruct (Rle_lt_or_eq_dec (- ((z + h) ^ 2) / 2) (- (1 / 2) * c ^ 2)) as [H|H]; [nra|left; now apply exp_increasing|right; now rewrite H].
Qed.
Lemma PI_316 : PI <= 316 / 100.
Proof.
  pose proof (PI_ineq 27) as [_ H]. unfold tg_alt, PI_tg in H. cbn [Nat.mul Nat.add sum_f_R0] in H.
  rewrite ?INR_IZR_INZ in H. cbn [Z.of_nat Pos.of_succ_nat Pos.succ Nat.mul Nat.add] in H. cbn [pow] in H. lra.
Qed.
Lemma half_gauss_bound t : 0 <= t -> half_gauss t <= 1257 / 1000.
Proof.
  intros Ht. pose proof (square_sum t Ht) as H. fold (half_gauss t) in H. pose proof (HH_bound t) as [H0 _]. pose proof PI_316. nra.
Qed.
