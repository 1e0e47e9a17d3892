(** Property C128: the zeroth-order coefficient with T="global". *)
From Coq Require Import String Reals ZArith QArith List Bool Lia Lra Permutation.
From Coquelicot Require Import Complex.
From Verif Require Import Base BaseProofs NdArray Backend Core1d Utils1d Utils1dProofs Frontend1d Spec1d Core1dProofs
  Frontend1dProofs NdProofs Rows1d FrontRows Factory1d FactoryProofs ComplexOps FilterBank1d FilterBank1dProofs Construct1d
  Shape1d PropFilters1d PropShapes1d Dft Conv1d Value1d Tabulated1d PropNumerics1d Invariance1d Norm1d Normal1d PropInvariance1d.
Import ListNotations.
Local Open Scope Z_scope.
Local Open Scope res_scope.

Lemma csum_backwards n (f : nat -> C) : csum n (fun i => f (n - 1 - i)%nat) = csum n f.
Proof.
  induction n as [|n IH]; [reflexivity|].
  assert (Sh : forall m g, csum (S m) g = Cplus (g 0%nat) (csum m (fun i => g (S i)))).
  { induction m as [|m IHm]; intros g; [cbn; ring|]. cbn [csum] in *. rewrite IHm. ring. }
  rewrite Sh. cbn [csum]. rewrite <- IH. replace (S n - 1 - 0)%nat with n by lia.
  rewrite (csum_ext n (fun i => f (S n - 1 - S i)%nat) (fun i => f (n - 1 - i)%nat)) by (intros i Hi; f_equal; lia). ring.
Qed.

(** C128, up to the padding: besides the N samples of the signal, the sum counts again the pad_left samples that follow the first one and the
    pad_right samples that precede the last one. *)
Theorem C128_zeroth_partial : forall support p out s N batch x l q i,
  constructed support p out s N -> s_average s = Ok Global ->
  nd_wf x -> nd_shape x = batch ++ [Z.to_nat N] -> scattering np (with_out s "list") x = Ok (OutList l) ->
  In q l -> p_n q = [] -> (i < prod batch)%nat ->
  nd_shape (p_coef q) = batch ++ [1%nat] /\
  at_ (signal 1 i (p_coef q)) 0 =
    Cplus (csum (Z.to_nat N) (at_ (signal (Z.to_nat N) i x)))
      (Cplus (csum (Z.to_nat (s_pad_left s)) (fun k => at_ (signal (Z.to_nat N) i x) (1 + k)))
             (csum (Z.to_nat (s_pad_right s)) (fun k => at_ (signal (Z.to_nat N) i x) (Z.to_nat N - 2 - k)))).
Proof.
  intros support p out s N batch x l q i (Hsup & H & EN & HN & HJ & Hmo) Ea Hw Hsh Hrun Hq Hk Hi.
  destruct (run_final _ _ _ _ _ _ _ _ Hsup H EN HN HJ Hmo Hw Hsh ltac:(lia) Hrun) as (Hd & pl & pr & m & ls & a & Rd & F).
  rewrite (rd_avg _ _ _ _ _ _ _ Rd) in Ea. injection Ea as ->.
  pose proof (rd_l _ _ _ _ _ _ _ Rd) as Hl. pose proof (rd_r _ _ _ _ _ _ _ Rd) as Hr.
  rewrite (rd_left _ _ _ _ _ _ _ Rd), (rd_right _ _ _ _ _ _ _ Rd), !Nat2Z.id.
  rewrite Forall_forall in F. destruct (F q Hq) as (_ & Sh & Val). change (final_len s (Z.to_nat N) pl ls Global (p_n q)) with 1%nat in *.
  split; [exact Sh|]. rewrite (Val i Hi), Hk. unfold final. cbn [is_local]. unfold at_ at 1. cbn [nth value]. unfold out0.
  set (n := Z.to_nat N) in *. set (row := signal n i x).
  rewrite osum_at, pad_row_length.
  assert (G : forall t, (t < pl + n + pr)%nat -> at_ (pad_reflect_row complex_ops pl pr n row) t = at_ row (reflect_index n (Z.of_nat t - Z.of_nat pl))).
  { intros t Ht. unfold pad_reflect_row. rewrite at_map_seq by exact Ht. reflexivity. }
  rewrite (csum_ext _ _ _ G), !csum_app.
  assert (A : csum pl (fun t => at_ row (reflect_index n (Z.of_nat t - Z.of_nat pl))) = csum pl (fun k => at_ row (1 + k))).
  { rewrite <- csum_backwards. apply csum_ext. intros t Ht. f_equal. unfold reflect_index. destruct (Z.ltb_spec (Z.of_nat (pl - 1 - t) - Z.of_nat pl) 0); lia. }
  assert (B : csum n (fun t => at_ row (reflect_index n (Z.of_nat (pl + t) - Z.of_nat pl))) = csum n (at_ row)).
  { apply csum_ext. intros t Ht. f_equal. unfold reflect_index. destruct (Z.ltb_spec (Z.of_nat (pl + t) - Z.of_nat pl) 0); [lia|]. destruct (Z.ltb_spec (Z.of_nat (pl + t) - Z.of_nat pl) (Z.of_nat n)); lia. }
  assert (D : csum pr (fun t => at_ row (reflect_index n (Z.of_nat (pl + n + t) - Z.of_nat pl))) = csum pr (fun k => at_ row (n - 2 - k))).
  { apply csum_ext. intros t Ht. f_equal. unfold reflect_index. destruct (Z.ltb_spec (Z.of_nat (pl + n + t) - Z.of_nat pl) 0); [lia|]. destruct (Z.ltb_spec (Z.of_nat (pl + n + t) - Z.of_nat pl) (Z.of_nat n)); lia. }
  rewrite A, B, D. ring.
Qed.
Print Assumptions C128_zeroth_partial.

(** A constant signal c other than zero: the coefficient is c times the padded length, which is not the sum of the signal as soon as there is any padding. *)
Theorem C128_sum_refuted : forall support p out s N batch x l q i (c : R),
  constructed support p out s N -> s_average s = Ok Global -> 0 < s_pad_left s + s_pad_right s -> c <> 0%R ->
  nd_wf x -> nd_shape x = batch ++ [Z.to_nat N] -> scattering np (with_out s "list") x = Ok (OutList l) ->
  In q l -> p_n q = [] -> (i < prod batch)%nat -> (forall t, (t < Z.to_nat N)%nat -> at_ (signal (Z.to_nat N) i x) t = RtoC c) ->
  at_ (signal 1 i (p_coef q)) 0 = RtoC (IZR (s_pad_left s + N + s_pad_right s) * c) /\
  at_ (signal 1 i (p_coef q)) 0 <> csum (Z.to_nat N) (at_ (signal (Z.to_nat N) i x)).
Proof.
  intros support p out s N batch x l q i c Hc Ea Hp Hc0 Hw Hsh Hrun Hq Hk Hi Hx.
  destruct (C128_zeroth_partial _ _ _ _ _ _ _ _ _ _ Hc Ea Hw Hsh Hrun Hq Hk Hi) as (_ & E).
  destruct (constructed_padding _ _ _ _ _ Hc) as (Q1 & Q2 & _).
  assert (K : forall m f, (forall t, (t < m)%nat -> f t = RtoC c) -> csum m f = RtoC (INR m * c)).
  { induction m as [|m IH]; intros f Hf; [cbn; now rewrite Rmult_0_l|]. cbn [csum]. rewrite IH by (intros; apply Hf; lia). rewrite Hf by lia.
    rewrite <- RtoC_plus, S_INR. f_equal. ring. }
  rewrite (K (Z.to_nat N)) in E |- * by exact Hx.
  rewrite (K (Z.to_nat (s_pad_left s))), (K (Z.to_nat (s_pad_right s))) in E by (intros t Ht; apply Hx; lia).
  rewrite <- !RtoC_plus, !INR_IZR_INZ, !Z2Nat.id in E by lia. rewrite !INR_IZR_INZ, !Z2Nat.id by lia.
  rewrite E, !plus_IZR. split; [f_equal; ring|]. intros Q. injection Q as Q.
  assert (Z0 : (IZR (s_pad_left s + s_pad_right s) * c = 0)%R) by (rewrite plus_IZR; lra).
  apply Rmult_integral in Z0. destruct Z0 as [Z0|Z0]; [|contradiction]. apply IZR_lt in Hp. lra.
Qed.
Print Assumptions C128_sum_refuted.

(** A signal of 100 ones is padded to 256 samples: the coefficient is 256, not 100. *)
Example C128_instance : exists s l q, let x := mk_nd Real [1; 100]%nat (repeat (RtoC 1) 100) in
  constructed (fun _ _ => 30) (mk_params 4 100 (QInt 1) TGlobal SNone 2) "list" s 100 /\ s_average s = Ok Global /\
  scattering np (with_out s "list") x = Ok (OutList l) /\ In q l /\ p_n q = [] /\ at_ (signal 1 0 (p_coef q)) 0 = RtoC 256.
Proof.
  destruct (concrete_objects TGlobal Global) as (s & Hc & Ea & _ & EL & _ & _ & _ & Run); [cbn; tauto|].
  set (x := mk_nd Real [1; 100]%nat (repeat (RtoC 1) 100)).
  destruct (Run 1%nat x eq_refl eq_refl eq_refl) as (l & Hl & Hk).
  destruct (constructed_padding _ _ _ _ _ Hc) as (Q1 & Q2 & Q3). rewrite EL in Q3.
  destruct l as [|q l]; [discriminate|]. injection Hk as Hq _.
  exists s, (q :: l), q. cbv zeta. split; [exact Hc|]. split; [exact Ea|]. split; [exact Hl|]. split; [left; reflexivity|]. split; [exact Hq|].
  destruct (C128_sum_refuted _ _ _ _ _ [1%nat] x _ q 0%nat 1%R Hc Ea ltac:(lia) ltac:(lra) eq_refl eq_refl Hl (or_introl eq_refl) Hq ltac:(cbn; lia)) as (E & _).
  - intros t Ht. change (signal (Z.to_nat 100) 0 x) with (repeat (RtoC 1) 100). unfold at_. rewrite (nth_indep _ _ (RtoC 1)) by (rewrite repeat_length; exact Ht). apply nth_repeat.
  - rewrite E, <- Q3. f_equal. change (IZR (Z.of_nat 256)) with 256%R. ring.
Qed.
