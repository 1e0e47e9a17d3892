(** C53 and C81: the PyTorch frontends compute the same 1-D transforms as the NumPy ones. *)
From Coq Require Import String Reals ZArith QArith List Bool Arith Lia Lra.
From Coq Require Lqa.
From Coquelicot Require Import Complex.
From Verif Require Import Base BaseProofs NdArray Backend Core1d Utils1d Utils1dProofs Frontend1d Frontend1dProofs Factory1d FactoryProofs ComplexOps NdProofs Rows1d FilterBank1d FilterBank1dProofs Construct1d
  PropFilters1d FrontRows Mats Jtfs JtfsFront JtfsProofs JtfsKeys JtfsRows JtfsFmt JtfsFull JtfsConstruct JtfsTotal PropJtfs JtfsReady JtfsRun JtfsCoef PropJtfsValues PropJtfsRuns
  Torch1d TorchRel TorchSim TorchStack TorchCore TorchJtfs TorchJtfsGlobal TorchModule TorchModuleProofs TorchFront PropTorchModule TorchConstructed.
Import ListNotations.
Local Open Scope nat_scope.
Local Open Scope res_scope.

(** A NumPy array and a tensor correspond as follows (TorchRel.v): [plain d k x t], a real array with [k] axes and a tensor of
    dtype [d], the same shape and the same entries; [rep d c k x t], an array with [k] axes, real for [c = 1] and complex for
    [c = 2], and a tensor with a trailing axis of length [c] holding the real parts, or the real and imaginary parts in
    turn; [crep] when the tensor is contiguous.  [sim true R a b]: [a] and [b] both return, values related by [R], or both
    raise, the same exception or ValueError in NumPy and RuntimeError in torch. *)
Lemma sim_meaning {A B} (Rl : A -> B -> Prop) a b : sim true Rl a b <->
  match a with
  | Ok x => exists y, b = Ok y /\ Rl x y
  | Err e => exists e', b = Err e' /\ (e = e' \/ (e = ValueError /\ e' = RuntimeError))
  end.
Proof. unfold sim, exc_rel. destruct a; [tauto|]. split; [intros H; now apply H|intros H _; exact H]. Qed.

(** C53: each operation of the torch backend corresponds to the NumPy one. *)
Theorem C53_operations : forall d k x t,
  (crep d 1 k x t -> sim true (crep d 2 k) (np_rfft complex_ops x) (t_rfft t)) /\
  (crep d 2 k x t -> sim true (crep d 2 k) (np_cfft complex_ops x) (t_cfft t)) /\
  (crep d 2 k x t -> sim true (crep d 2 k) (np_ifft complex_ops x) (t_ifft t)) /\
  (crep d 2 k x t -> sim true (rep d 1 k) (np_irfft complex_ops x) (t_irfft t)) /\
  (crep d 2 k x t -> sim true (crep d 1 k) (np_modulus complex_ops x) (t_modulus t)) /\
  (forall w u, crep d 2 (S k) x t -> crep d 1 1 w u -> sim true (crep d 2 (S k)) (np_cdgmm complex_ops x w) (t_cdgmm t u)) /\
  (forall q, crep d 2 (S k) x t -> sim true (crep d 2 (S k)) (np_subsample complex_ops x q) (t_subsample t q)) /\
  (forall l r, plain d (S k) x t -> k = 1 \/ k = 2 -> sim true (crep d 1 (S k)) (np_pad complex_ops x l r) (t_pad t l r)) /\
  (forall a b, rep d 1 (S k) x t -> sim true (plain d (S k)) (np_unpad x a b) (t_unpad t a b)) /\
  (forall n, plain d k x t -> sim true (plain d 3) (np_reshape_input x [n]) (t_reshape_input t [n])) /\
  (forall batch n, plain d k x t ->
     sim true (plain d (length (batch ++ trailing n (nd_shape x)))) (np_reshape_output x batch n) (t_reshape_output t batch n)) /\
  (crep d 1 (S k) x t -> sim true (crep d 1 (S k)) (np_average_global complex_ops x) (t_average_global t)) /\
  (forall dim l l', Forall2 (plain d k) l l' -> (- Z.of_nat k - 1 <= dim < 0)%Z -> sim true (plain d (S k)) (stack l dim) (t_stack l' dim)).
Proof.
  intros d k x t. split; [intros H; now apply rfft_sim|]. split; [intros H; now apply cfft_sim|]. split; [intros H; now apply ifft_sim|].
  split; [intros H; now apply irfft_sim|]. split; [intros H; now apply modulus_sim|]. split; [intros w u H1 H2; now apply cdgmm_sim|].
  split; [intros q H; now apply subsample_sim|]. split; [intros l r H1 H2; now apply pad_sim|]. split; [intros a b H; now apply unpad_sim|].
  split; [intros n H; now apply (reshape_input_sim d true k)|]. split; [intros batch n H; now apply (reshape_output_plain d true k)|].
  split; [intros H; eapply sim_weaken; [|apply (average_sim d true k x t H)]; intros y u [G _]; exact G|].
  intros dim l l' H Hd. apply (stack_plain d true k dim l l' (Z.to_nat (dim + Z.of_nat k + 1))); [exact H|lia|lia].
Qed.
Print Assumptions C53_operations.

(** The constructors raise the same exceptions. *)
Theorem C53_constructor : forall support p out e,
  Scattering1D support p out = Err e <-> ScatteringTorch1D support p out = Err e.
Proof.
  intros support p out e. unfold ScatteringTorch1D. destruct (Scattering1D support p out) as [s|e']; cbn [bind]; [|split; intros E; injection E as ->; reflexivity].
  destruct (register1d from_numpy s empty_store) as [[s0 n] st]. split; discriminate.
Qed.
Print Assumptions C53_constructor.

(** The transforms: for every configuration accepted by the constructor and every sequence of casts and calls of the module
    (whether or not they raised), a call on a contiguous tensor of the dtype of the module returns the coefficients and the paths
    that NumPy returns, and raises when NumPy does.  Missing from the full claim: the exceptions are not of the same
    class when a shape is wrong, and non-contiguous tensors are rejected (both refuted below). *)
Theorem C53_same_transform_partial : forall support p out s l k x t, Scattering1D support p out = Ok s ->
  plain (dtype_after l) k x t -> t_contig t = true ->
  exists m m', ScatteringTorch1D support p out = Ok m /\ run_ops call1d l m = Ok m' /\
    match scattering np s x with
    | Ok y => exists y', forward1d m' t = Ok y' /\ out_rel (dtype_after l) k y y'
    | Err e => exists e', forward1d m' t = Err e' /\ (e = e' \/ (e = ValueError /\ e' = RuntimeError))
    end.
Proof.
  intros support p out s l k x t Hs Hx Hc.
  destruct (ScatteringTorch1D support p out) as [m|e] eqn:Hm; [|apply C53_constructor in Hm; congruence].
  destruct (torch1d_filters support p out s m l Hs Hm) as (st & s1 & s2 & n & R & L & V).
  exists m, (st, s1). split; [reflexivity|]. split; [exact R|]. apply sim_meaning. unfold forward1d, t_contiguous_check. rewrite Hc. cbn [bind negb].
  rewrite L. cbn [bind]. rewrite V. apply scattering_sim; [|exact Hx]. apply smap_srel. now apply new_ok in Hs.
Qed.
Print Assumptions C53_same_transform_partial.

(** A tensor of another dtype than the module's (by default, any tensor of double precision) raises TypeError where NumPy
    returns. *)
Lemma cdgmm_mismatch d d' k x t w u y : crep d' 2 (S k) x t -> crep d 1 1 w u -> d <> d' -> np_cdgmm complex_ops x w = Ok y -> t_cdgmm t u = Err TypeError.
Proof.
  intros Hx Hw Hd E.
  assert (Hw' : crep d' 1 1 w (cast d' u)). { destruct Hw as [[] C]. split; [|exact C]. constructor; auto. }
  pose proof (cdgmm_sim d' true k x t w (cast d' u) Hx Hw') as G. rewrite E in G. destruct G as (v & G & _). revert G. unfold t_cdgmm, cast.
  cbn [t_shape t_dtype t_data t_contig].
  destruct (split_last (t_shape u)) as [[sB cB]|]; [|discriminate]. cbn [bind].
  assert (F : forall A (r : res A), (if Nat.eqb cB 1 then t_contiguous_check (mk_t d' (t_shape u) (t_data u) (t_contig u)) else _ <- t_complex_check (mk_t d' (t_shape u) (t_data u) (t_contig u)) ;; t_contiguous_check (mk_t d' (t_shape u) (t_data u) (t_contig u))) =
    (if Nat.eqb cB 1 then t_contiguous_check u else _ <- t_complex_check u ;; t_contiguous_check u)) by (intros; destruct u; reflexivity).
  rewrite (F unit (Ok tt)). destruct (if Nat.eqb cB 1 then _ else _); [|discriminate]. cbn [bind].
  destruct (t_complex_check t); [|discriminate]. cbn [bind]. destruct (t_contiguous_check t); [|discriminate]. cbn [bind].
  destruct (split_last (t_shape t)) as [[sA cA]|]; [|discriminate]. cbn [bind]. destruct (list_eq_dec _ _ _); [|discriminate].
  destruct Hx as [Hx _], Hw as [Hw _]. rewrite (rp_dtype Hx), (rp_dtype Hw). destruct d, d'; try congruence; reflexivity.
Qed.

Section Mismatch.
Context {P : Type} (d d' : fdtype).
Hypothesis Hd : d <> d'.
Notation nb := (numpy_backend complex_ops). Notation tb := torch_backend.
(** [mis a b]: torch raises TypeError if NumPy returns. *)
Definition mis {A B} (a : res A) (b : res B) : Prop := match a with Ok _ => b = Err TypeError | Err _ => True end.
Lemma mis_bind {A B A' B'} (a : res A) (b : res B) (f : A -> res A') (g : B -> res B') : mis a b -> mis (x <- a ;; f x) (y <- b ;; g y).
Proof. destruct a; cbn [bind mis]; [|trivial]. intros ->. destruct (f a); reflexivity || exact I. Qed.
Lemma mis_sim {A B A' B'} (Rl : A -> B -> Prop) (a : res A) (b : res B) (f : A -> res A') (g : B -> res B') :
  sim true Rl a b -> (forall x y, Rl x y -> mis (f x) (g y)) -> mis (x <- a ;; f x) (y <- b ;; g y).
Proof. destruct a; cbn [bind sim]; [|exact (fun _ _ => I)]. intros (y & -> & H) K. now apply K. Qed.

Lemma filter_mis {A B} k x t (f : Core1d.filter (nd C) P) g i (F : nd C -> res A) (G : tensor -> res B) : crep d' 2 (S k) x t -> frel d f g ->
  mis (l <- py_index (f_levels f) i ;; c <- be_cdgmm nb x l ;; F c) (l <- py_index (f_levels g) i ;; c <- be_cdgmm tb t l ;; G c).
Proof.
  intros Hx Hf. eapply mis_sim; [apply (level_sim d true); exact Hf|]. intros w u Hw. apply mis_bind. cbn [numpy_backend torch_backend be_cdgmm].
  destruct (np_cdgmm complex_ops x w) eqn:E; [|exact I]. apply (cdgmm_mismatch d d' k x t w u _ Hx Hw Hd E).
Qed.
Lemma scattering1d_mis k U U' phi phi' psi1 psi1' psis psis' ls al : frel (P := P) d phi phi' -> crep d' 1 (S k) U U' -> Forall2 (frel d) psi1 psi1' -> psi1 <> [] ->
  mis (scattering1d nb U phi (psi1 :: psis) ls al) (scattering1d tb U' phi' (psi1' :: psis') ls al).
Proof.
  intros Hphi HU H1 Hne. unfold scattering1d. eapply mis_sim; [apply (rfft_sim d' true (S k)); exact HU|]. intros Uh Uh' HUh. destruct al.
  - apply mis_bind. unfold order0. apply (filter_mis k); assumption.
  - cbn [order0 bind py_index]. destruct H1 as [|f g psi1 psi1' Hf H1]; [congruence|].
    change (mis (ps <- mapM (order1 nb phi (nth_error ((f :: psi1) :: psis) 1) Uh ls false) (enumerate (f :: psi1)) ;; Ok (mk_path U [] [] :: concat ps))
                (ps <- mapM (order1 tb phi' (nth_error ((g :: psi1') :: psis') 1) Uh' ls false) (enumerate (g :: psi1')) ;; Ok (mk_path U' [] [] :: concat ps))).
    apply mis_bind. unfold enumerate. cbn [enum_from mapM]. apply mis_bind. unfold order1. apply mis_bind. unfold order1_modulus. apply (filter_mis k); assumption.
Qed.
Lemma scattering_mis (s : scat1d (nd C) P) s' k x t : srel d s s' -> plain d' k x t -> s_psi1 s <> [] ->
  mis (scattering nb s x) (scattering tb s' t).
Proof.
  intros Hs Hx Hne. unfold scattering. rewrite <- (check_runtime_same d _ _ Hs).
  eapply mis_sim; [apply sim_same|]. intros _ _ _.
  change (be_shape nb x) with (nd_shape x). change (be_shape tb t) with (t_shape t). rewrite (pl_shape Hx).
  eapply mis_sim; [apply sim_same|]. intros _ _ _.
  destruct (split_last (nd_shape x)) as [[batch n]|e] eqn:Esp; cbn [bind]; [|exact I].
  eapply mis_sim; [apply (reshape_input_sim d' true k); exact Hx|]. intros y u Hy.
  rewrite <- (sr_left _ _ _ Hs), <- (sr_right _ _ _ Hs), <- (sr_stride _ _ _ Hs), <- (sr_avg _ _ _ Hs), <- (sr_out _ _ _ Hs).
  eapply mis_sim; [apply (pad_sim d' true 2); [exact Hy|now right]|]. intros U U' HU.
  eapply mis_sim; [apply sim_same|]. intros ls ? <-. eapply mis_sim; [apply sim_same|]. intros a ? <-.
  apply mis_bind. unfold psis_of. rewrite <- (sr_max_order _ _ _ Hs). destruct (Z.to_nat (s_max_order s)) as [|mo].
  - cbn [firstn]. unfold scattering1d. destruct (be_rfft nb U); [|exact I]. cbn [bind]. destruct (order0 _ _ _ _ _ _); [|exact I]. exact I.
  - cbn [firstn]. apply (scattering1d_mis 2); [apply Hs|exact HU|apply Hs|exact Hne].
Qed.
End Mismatch.

(** In a module whose buffers have dtype [d], a call on a contiguous tensor of another dtype raises TypeError whenever NumPy
    returns on the same numbers. *)
Theorem C53_dtype : forall support p out s l d k x t y, Scattering1D support p out = Ok s -> s_psi1 s <> [] ->
  plain d k x t -> t_contig t = true -> d <> dtype_after l -> scattering np s x = Ok y ->
  exists m m', ScatteringTorch1D support p out = Ok m /\ run_ops call1d l m = Ok m' /\ forward1d m' t = Err TypeError.
Proof.
  intros support p out s l d k x t y Hs Hne Hx Hc Hd Hy.
  destruct (ScatteringTorch1D support p out) as [m|e] eqn:Hm; [|apply C53_constructor in Hm; congruence].
  destruct (torch1d_filters support p out s m l Hs Hm) as (st & s1 & s2 & n & R & L & V).
  exists m, (st, s1). split; [reflexivity|]. split; [exact R|]. unfold forward1d, t_contiguous_check. rewrite Hc. cbn [bind negb raise_if].
  rewrite L. cbn [bind]. rewrite V.
  assert (G : mis (scattering np s x) (scattering torch_backend (smap (buffer (dtype_after l)) s) t)).
  { apply (scattering_mis (dtype_after l) d (not_eq_sym Hd) s _ k x t); [|exact Hx|exact Hne]. apply smap_srel. now apply new_ok in Hs. }
  rewrite Hy in G. exact G.
Qed.
Print Assumptions C53_dtype.

(** Exceptions of different classes: an empty signal, with any module of default configuration. *)
Theorem C53_exceptions_refuted : forall support J N q, (forall n t, (0 <= support n t)%Z) -> (0 <= J)%Z -> (1 <= q)%Z -> (2 ^ J <= N)%Z ->
  exists s m, Scattering1D support (mk_params J N (QInt q) TNone SNone 2) "array" = Ok s /\
    ScatteringTorch1D support (mk_params J N (QInt q) TNone SNone 2) "array" = Ok m /\
    scattering np s (mk_nd Real [0] []) = Err ValueError /\ forward1d m (mk_t F32 [0] [] true) = Err RuntimeError.
Proof.
  intros support J N q Hsup HJ Hq HN. destruct (constructor_instance support J N q "array" Hsup HJ Hq HN) as [s Hs].
  destruct (ScatteringTorch1D support (mk_params J N (QInt q) TNone SNone 2) "array") as [m|e] eqn:Hm; [|apply C53_constructor in Hm; congruence].
  exists s, m. split; [exact Hs|]. split; [reflexivity|].
  destruct (torch1d_filters support _ _ s m [] Hs Hm) as (st & s1 & s2 & n & R & L & V). cbn [run_ops] in R. injection R as ->.
  assert (Hc : check_runtime_args s = Ok tt).
  { apply new_inv in Hs. destruct Hs as (b & Qs & T & l2T & phi & psi1s & psi2s & _ & _ & _ & _ & _ & _ & ->). reflexivity. }
  split; [unfold scattering; rewrite Hc; reflexivity|].
  unfold forward1d, t_contiguous_check. cbn [bind negb raise_if t_contig]. rewrite L. cbn [bind]. rewrite V. unfold scattering.
  change (check_runtime_args (smap (buffer (dtype_after [])) s)) with (check_runtime_args s). rewrite Hc. reflexivity.
Qed.
Print Assumptions C53_exceptions_refuted.

(** A non-contiguous tensor (a slice or a transpose of another one) is rejected, where NumPy computes. *)
Theorem C53_contiguity_refuted : forall support J N q batch x t, (forall n t, (0 <= support n t)%Z) -> (0 <= J)%Z -> (1 <= q)%Z -> (2 ^ J <= N)%Z ->
  plain F32 (length batch + 1) x t -> nd_shape x = batch ++ [Z.to_nat N] -> t_contig t = false ->
  exists s m y, Scattering1D support (mk_params J N (QInt q) TNone SNone 2) "list" = Ok s /\
    ScatteringTorch1D support (mk_params J N (QInt q) TNone SNone 2) "list" = Ok m /\
    scattering np s x = Ok y /\ forward1d m t = Err RuntimeError.
Proof.
  intros support J N q batch x t Hsup HJ Hq HN Hx Hsh Hc. destruct (constructor_instance support J N q "list" Hsup HJ Hq HN) as [s Hs].
  destruct (ScatteringTorch1D support (mk_params J N (QInt q) TNone SNone 2) "list") as [m|e] eqn:Hm; [|apply C53_constructor in Hm; congruence].
  pose proof (pow2_pos J HJ).
  pose proof Hs as Hs0. apply new_inv in Hs0. destruct Hs0 as (b & Qs & T & l & phi & psi1s & psi2s & Hb & EQ & ET & El & _ & _ & Es).
  destruct (build_inv _ _ _ Hb) as (st & T' & l' & r & EN & EO & _ & _ & Eb). cbn in EO. injection EO as <-. cbn in EN. injection EN as EN.
  assert (Els : s_log2_stride s = Ok J). { rewrite Es. cbn [s_log2_stride]. rewrite Eb. cbn [b_stride b_N log2_stride_of mk_params p_T p_J]. unfold log2_T_of, T_of. cbn [parse_T bind fst]. now rewrite log2_floor_pow2. }
  assert (Ea : s_average s = Ok Local) by (rewrite Es; reflexivity).
  assert (EQ' : Q_of (p_Q (mk_params J N (QInt q) TNone SNone 2)) = Ok [QI q; QI 1]).
  { cbn [p_Q mk_params]. unfold Q_of. cbn [qval_entries existsb map]. rewrite (proj2 (Qltb_false _ _)); [reflexivity|]. unfold Qle. cbn. lia. }
  destruct (C14_lookups support _ "list" s N q 1 J Local J Hsup Hs) as (_ & _ & _ & G); try assumption; try reflexivity; try (cbn; lia); try discriminate.
  { cbn [p_T p_J mk_params]. unfold log2_T_of, T_of. cbn [parse_T bind fst]. now rewrite log2_floor_pow2. }
  destruct (G batch x (pl_dt Hx) Hsh (pl_wf Hx)) as (y & Hy).
  assert (Ew : with_out s "list" = s) by (rewrite Es; reflexivity). rewrite Ew in Hy.
  exists s, m, (OutList y). split; [exact Hs|]. split; [reflexivity|]. split; [exact Hy|]. destruct m. unfold forward1d, t_contiguous_check. rewrite Hc. reflexivity.
Qed.
Print Assumptions C53_contiguity_refuted.

(** Every N >= 2^J, every batch: a constant signal, after two casts and a rejected call. *)
Example C53_instance : forall support J N q batch, (forall n t, (0 <= support n t)%Z) -> (0 <= J)%Z -> (1 <= q)%Z -> (2 ^ J <= N)%Z ->
  let p := mk_params J N (QInt q) TNone SNone 2 in
  let l := [To F64; Forward (mk_t F32 [0] [] false); To F32] in
  let x := mk_nd Real (batch ++ [Z.to_nat N]) (repeat (RtoC 1) (prod (batch ++ [Z.to_nat N]))) in
  let t := mk_t F32 (batch ++ [Z.to_nat N]) (repeat 1%R (prod (batch ++ [Z.to_nat N]))) true in
  exists s, Scattering1D support p "list" = Ok s /\ plain (dtype_after l) (length batch + 1) x t /\ t_contig t = true.
Proof.
  intros support J N q batch Hsup HJ Hq HN p l x t. destruct (constructor_instance support J N q "list" Hsup HJ Hq HN) as [s Hs].
  exists s. split; [exact Hs|]. split; [|reflexivity]. constructor; try reflexivity.
  - unfold nd_wf. cbn [x nd_shape nd_data]. now rewrite repeat_length.
  - cbn [x nd_shape]. now rewrite app_length.
  - apply Forall_forall. cbn [x nd_data]. intros z Hz. apply repeat_spec in Hz. now subst z.
  - cbn [x t nd_data t_data]. generalize (prod (batch ++ [Z.to_nat N])). intros n. induction n; cbn; [reflexivity|]. now f_equal.
Qed.

(** ** C81 *)
Theorem C81_constructor : forall support p out e,
  TimeFrequencyScattering support p out = Err e <-> TimeFrequencyScatteringTorch support p out = Err e.
Proof.
  intros support p out e. unfold TimeFrequencyScatteringTorch. destruct (TimeFrequencyScattering support p out) as [s|e']; cbn [bind]; [|split; intros E; injection E as ->; reflexivity].
  destruct (registerj from_numpy s empty_store) as [s0 st]. split; discriminate.
Qed.
Print Assumptions C81_constructor.

(** Whenever NumPy returns, so does torch, with the same coefficients, paths and containers, except in the format 'joint' with
    T='global', which is refuted below.  Missing from the full claim: that case; the exceptions are in the next theorem. *)
Theorem C81_same_transform_partial : forall support p out s l k x t y, TimeFrequencyScattering support p out = Ok s ->
  (s_average (t_base s) = Ok Global -> t_format s <> "joint"%string) ->
  plain (dtype_after l) k x t -> t_contig t = true -> jtfs_scattering np sgnR s x = Ok y ->
  exists m m' y', TimeFrequencyScatteringTorch support p out = Ok m /\ run_ops loadj l m = Ok m' /\ forwardj m' t = Ok y' /\
    jout_rel (dtype_after l) (if String.eqb (t_format s) "joint" then k + 1 else k) y y'.
Proof.
  intros support p out s l k x t y Hs Hg Hx Hc Hy.
  destruct (TimeFrequencyScatteringTorch support p out) as [m|e] eqn:Hm; [|apply C81_constructor in Hm; congruence].
  destruct (torchj_filters support p out s m l Hs Hm) as (st & s1 & s2 & R & L & V). destruct (newj_ok _ _ _ _ Hs) as (K1 & K2 & K3).
  pose proof (jtfs_sim sgnR (dtype_after l) false s (jmap (buffer (dtype_after l)) s) k x t (jmap_tjrel _ s K1 K2 K3) Hx) as G.
  rewrite Hy in G. destruct G as (y' & E & Hr); [intros Ea; apply String.eqb_neq; now apply Hg|discriminate|].
  exists m, (st, s1), y'. split; [reflexivity|]. split; [exact R|]. split.
  - unfold forwardj, t_contiguous_check. rewrite Hc. cbn [bind negb raise_if]. rewrite L. cbn [bind]. rewrite V. exact E.
  - destruct (String.eqb (t_format s) "joint"); [exact Hr|now rewrite Nat.add_0_r in Hr].
Qed.
Print Assumptions C81_same_transform_partial.

(** Whenever NumPy raises, so does torch, with an exception of the same class or RuntimeError for ValueError, if the padded
    frequency axis has room for the first-order wavelets.  Missing from the full claim: the format 'joint' with T='global', and
    banks with more wavelets than padded frequency bins, where torch.nn.functional.pad crops what numpy.pad refuses. *)
Theorem C81_exceptions_partial : forall support p out s l k x t e, TimeFrequencyScattering support p out = Ok s ->
  (s_average (t_base s) = Ok Global -> t_format s <> "joint"%string) -> (Z.of_nat (length (s_psi1 (t_base s))) <= f_N (t_phi_fr s))%Z ->
  plain (dtype_after l) k x t -> t_contig t = true -> jtfs_scattering np sgnR s x = Err e ->
  exists m m' e', TimeFrequencyScatteringTorch support p out = Ok m /\ run_ops loadj l m = Ok m' /\ forwardj m' t = Err e' /\
    (e = e' \/ (e = ValueError /\ e' = RuntimeError)).
Proof.
  intros support p out s l k x t e Hs Hg Hroom Hx Hc Hy.
  destruct (TimeFrequencyScatteringTorch support p out) as [m|e0] eqn:Hm; [|apply C81_constructor in Hm; congruence].
  destruct (torchj_filters support p out s m l Hs Hm) as (st & s1 & s2 & R & L & V). destruct (newj_ok _ _ _ _ Hs) as (K1 & K2 & K3).
  pose proof (jtfs_sim sgnR (dtype_after l) true s (jmap (buffer (dtype_after l)) s) k x t (jmap_tjrel _ s K1 K2 K3) Hx) as G.
  rewrite Hy in G. destruct G as (e' & E & Hr); [intros Ea; apply String.eqb_neq; now apply Hg|intros _; exact Hroom|reflexivity|].
  exists m, (st, s1), e'. split; [reflexivity|]. split; [exact R|]. split; [|exact Hr].
  unfold forwardj, t_contiguous_check. rewrite Hc. cbn [bind negb raise_if]. rewrite L. cbn [bind]. rewrite V. exact E.
Qed.
Print Assumptions C81_exceptions_partial.

(** There is room whenever the frequential averaging scale F is at least 2**J_fr / 8, in particular by default. *)
Theorem C81_room : forall support p out s q0 q1 F, (0 <= p_J (jp_base p))%Z -> (0 <= jp_J_fr p)%Z -> TimeFrequencyScattering support p out = Ok s ->
  Q_of (p_Q (jp_base p)) = Ok [QI q0; q1] -> T_of (jp_F p) (jp_J_fr p) ((p_J (jp_base p) + 1) * q0) = Ok F ->
  (inject_Z (2 ^ jp_J_fr p) <= 8 * F)%Q -> (Z.of_nat (length (s_psi1 (t_base s))) <= f_N (t_phi_fr s))%Z.
Proof.
  intros support p out s q0 q1 F HJ HJf Hs HQ HF H. destruct (C38_padding_partial support p out s q0 q1 F HJ HJf Hs HQ HF) as (_ & _ & G & _).
  set (K := inject_Z (2 ^ jp_J_fr p)) in *. assert (HK : (0 <= K)%Q) by (unfold K, Qle; cbn; pose proof (pow2_pos _ HJf); lia).
  assert (K <= 8 * Qminmax.Qmin F K)%Q. { destruct (Qminmax.Q.min_spec F K) as [[_ E]|[_ E]]; rewrite E; Lqa.lra. }
  rewrite Zle_Qle. Lqa.lra.
Qed.
Print Assumptions C81_room.

(** Parameters with everything but J, Q, N, J_fr and T='global' at its default. *)
Definition global_jparams (J N q J_fr : Z) (format : string) : jparams :=
  mk_jparams {| p_J := J; p_shape := ShInt N; p_Q := QInt q; p_T := TGlobal; p_stride := SNone; p_max_order := 2; p_oversampling := ONone |}
    J_fr (QInt 1) TNone SNone format.

Lemma anden_length J q : (0 <= J)%Z -> (1 <= q)%Z -> (Z.to_nat (q - 1) <= length (anden_list J q sigma0 r_psi)).
Proof.
  intros HJ Hq. destruct (anden_list_ok J q HJ Hq) as [[_ ->]|[_ (g & _ & ->)]]; rewrite ?app_length; unfold arithmetic; rewrite map_length, seq_length; lia.
Qed.

(** With T='global' in the format 'joint', every call of the torch module raises RuntimeError where NumPy returns, for every signal
    length N >= 2^J, every batch, whatever the previous casts and calls. *)
Theorem C81_joint_global_refuted : forall support J N q J_fr l batch x t, (forall n t, (0 <= support n t)%Z) ->
  (0 <= J)%Z -> (0 <= J_fr)%Z -> (2 ^ J_fr <= q - 1)%Z -> (2 ^ J <= N)%Z ->
  plain (dtype_after l) (length batch + 1) x t -> nd_shape x = batch ++ [Z.to_nat N] -> prod batch <> 0 -> t_contig t = true ->
  let p := global_jparams J N q J_fr "joint" in
  exists s y m m', TimeFrequencyScattering support p "list" = Ok s /\ jtfs_scattering np sgnR s x = Ok y /\
    TimeFrequencyScatteringTorch support p "list" = Ok m /\ run_ops loadj l m = Ok m' /\ forwardj m' t = Err RuntimeError.
Proof.
  intros support J N q J_fr l batch x t Hsup HJ HJf Hq HN Hx Hsh Hb Hc p. pose proof (pow2_pos J HJ) as P1. pose proof (pow2_pos J_fr HJf) as P2.
  destruct (build_total support (jp_base p) N SNone (Qpower 2 J)) as [b Eb]; [reflexivity|lia|apply Hsup|reflexivity|reflexivity|].
  assert (HbN : b_N b = N). { destruct (build_inv _ _ _ Eb) as (st & T & l0 & r & EN & _). cbn in EN. congruence. }
  destruct (build_plan support _ b Hsup Eb) as (_ & B1 & _); [lia|].
  assert (EQ : Q_of (p_Q (jp_base p)) = Ok [QI q; QI 1]).
  { unfold p, Q_of. cbn [jp_base global_jparams p_Q qval_entries existsb map]. rewrite (proj2 (Qltb_false _ _)); [reflexivity|]. unfold Qle. cbn. lia. }
  destruct (new_total support (jp_base p) "list" b q 1 J) as [base Hbase]; try assumption; try lia.
  { cbn [jp_base p global_jparams p_T p_J]. unfold log2_T_of, T_of. cbn [parse_T bind fst]. now rewrite log2_floor_pow2. }
  { cbn [jp_base p global_jparams p_J]. assert (2 ^ Z.max J (J - 2) = 2 ^ J)%Z by (f_equal; lia). lia. }
  destruct (new_jtfs_total support p "list" base q (QI 1) 1 (Qpower 2 J_fr)) as [s [Hs Ebase]]; try assumption; [reflexivity|reflexivity|cbn [p jp_J_fr global_jparams]; rewrite log2_floor_pow2 by exact HJf; lia|apply default_bins; [cbn; nia|exact HJf]|].
  cbn [jp_base p global_jparams p_J p_shape p_Q p_T p_stride] in Hbase.
  (* the attributes *)
  assert (Ea : s_average (t_base s) = Ok Global /\ s_log2_stride (t_base s) = Ok J /\ s_out_type (t_base s) = "list"%string).
  { rewrite Ebase. pose proof Hbase as H. apply new_inv in H. destruct H as (b' & Qs & T & l2T & phi & psi1s & psi2s & Hb' & _ & _ & _ & _ & _ & ->).
    destruct (build_inv _ _ _ Hb') as (st & T0 & l0 & r0 & EN' & Eov & _ & _ & ->). cbn in Eov. injection Eov as <-. split; [reflexivity|]. split; [|reflexivity].
    cbn [s_log2_stride b_stride b_N log2_stride_of p_T p_J]. unfold log2_T_of, T_of. cbn [parse_T bind fst]. now rewrite log2_floor_pow2. }
  destruct Ea as (Ea & Els & Eo).
  pose proof Hs as Hs0. apply new_jtfs_inv in Hs0.
  destruct Hs0 as (pb & Q_fr & q0 & q1' & F & Epb & EB & EQf & EQ' & ET & HNf & Elsf & Eaf & Ef & Ephi & _).
  cbn [p global_jparams jp_F jp_J_fr jp_stride_fr jp_format jp_base p_J] in *.
  assert (EF : F = Qpower 2 J_fr) by (unfold T_of in ET; cbn in ET; congruence). subst F.
  assert (Elsf' : t_log2_stride_fr s = Ok J_fr). { rewrite Elsf. cbn [log2_stride_of]. unfold log2_T_of, T_of. cbn [parse_T bind fst]. now rewrite log2_floor_pow2. }
  pose proof (factory_inv1 _ _ _ _ _ _ _ _ _ Ephi ltac:(cbn; lia)) as (Fj & _). rewrite log2_floor_pow2 in Fj by exact HJf.
  destruct (C38_padding_partial support p "list" s q (QI 1) (Qpower 2 J_fr)) as (_ & _ & _ & HN_fr); try assumption. specialize (HN_fr eq_refl).
  cbn [p global_jparams jp_J_fr] in HN_fr.
  assert (A : aligned p s N J Global J_fr Local).
  { constructor; try assumption; try reflexivity; try (cbn; lia).
    - exists q, 1%Z. split; [exact EQ|lia].
    - discriminate.
    - intros _. split; [lia|]. intros psi Hpsi _. pose proof (new_jtfs_spun support p "list" s HJf Hs) as [_ Hsc]. rewrite Forall_forall in Hsc. apply (Hsc psi Hpsi). }
  destruct (new_jready _ _ _ _ _ _ _ _ _ Hsup Hs A) as (lp & r & mx & Hr).
  destruct (of_rows_intro x batch (Z.to_nat N) (pl_wf Hx) Hsh) as (rows & Ex & Rx). rewrite (pl_dt Hx) in Ex.
  assert (Hchk : jcheck_runtime_args s = Ok tt). { unfold jcheck_runtime_args, check_runtime_args. rewrite Eo, Ea, Ef, Eaf. reflexivity. }
  pose proof (jpaths_rows complex_ops complex_ops_ok sgnR s _ _ _ _ _ _ _ _ _ Hr batch rows Rx Hchk) as E. rewrite <- Ex in E.
  destruct (TimeFrequencyScatteringTorch support p "list") as [m|e] eqn:Hm; [|apply C81_constructor in Hm; congruence].
  destruct (torchj_filters support p "list" s m l Hs Hm) as (st & s1 & s2 & R & L & V). destruct (newj_ok _ _ _ _ Hs) as (K1 & K2 & K3).
  eexists s, _, m, (st, s1). split; [exact Hs|]. split; [unfold jtfs_scattering; rewrite E; cbn [bind]; unfold jcontainer; rewrite Eo; reflexivity|].
  split; [reflexivity|]. split; [exact R|].
  unfold forwardj, t_contiguous_check. rewrite Hc. cbn [bind negb raise_if]. rewrite L. cbn [bind]. rewrite V.
  destruct (new_jtfs_bank support p "list" s HJf Hs) as (low & pos & neg & Ebk & Hxi & Hj & _). cbn [p global_jparams jp_J_fr] in Hj.
  set (Nfr := Z.to_nat (f_N (t_phi_fr s))) in *.
  set (e0 := entry_of complex_ops sgnR Nfr J_fr Local [(-1)%Z] [] (length (s_psi1 (t_base s))) ((lp + Z.to_nat N + r) / p2 J)
               (time1 complex_ops (s_phi (t_base s)) (s_psi1 (t_base s)) (lp + Z.to_nat N + r) J false) (0, low)).
  assert (He : In e0 (entries complex_ops sgnR s (Z.to_nat N) lp r J Global Nfr J_fr Local)).
  { unfold entries. apply in_app_iff. left. apply in_map, In_enumerate. rewrite Ebk. unfold nonneg. cbn [List.filter]. now rewrite Hxi, sgnR_0. }
  assert (exists q, In q (out_paths complex_ops s (Z.to_nat N) lp r J Global J_fr Local batch rows e0)) as (q2 & Hq2).
  { unfold out_paths. rewrite Ef. cbn. eexists. left. reflexivity. }
  destruct (out_paths_shape _ _ _ _ _ _ _ _ _ _ _ _ _ _ Hr Rx He Hq2) as (_ & Sh). rewrite Ef in Sh. cbn [String.eqb Ascii.eqb Bool.eqb] in Sh.
  eapply (joint_global_error sgnR (dtype_after l) s (jmap (buffer (dtype_after l)) s) _ x t _ _ q2 batch (jrows s J_fr Local e0)).
  - now apply jmap_tjrel.
  - exact Hx.
  - exact Ea.
  - exact Ef.
  - exact E.
  - apply in_flat_map. exists e0. split; [exact He|exact Hq2].
  - rewrite Sh. reflexivity.
  - exact Hb.
  - (* several frequencies *)
    unfold jrows, ulen, joint_array, flen. rewrite Eo. cbn [String.eqb Ascii.eqb Bool.eqb andb]. cbn [e0 entry_of e_q e_m slot fst snd q_spin q_n1_max q_j_fr].
    rewrite Hxi, sgnR_0. cbn [Z.eqb]. 
    assert (Hn : (q - 1 <= Z.of_nat (length (s_psi1 (t_base s))))%Z).
    { destruct (constructed_psi1 support p "list" s q (QI 1) HJ Hs EQ) as (Hps & _ & _). cbn [p global_jparams jp_base p_J] in Hps.
      pose proof (anden_length J q HJ ltac:(lia)) as G. rewrite <- Hps, map_length in G. lia. }
    assert (Es : forall a b c, estride J_fr Local (slot sgnR a b c (0, low)) = (2 ^ J_fr)%Z).
    { intros a b' c. unfold estride, slot. cbn [q_spin q_j_fr fst snd]. rewrite Hxi, sgnR_0. cbn [Z.eqb]. now rewrite Hj. }
    rewrite Es. unfold kf. cbn [is_local_avg]. rewrite Hj, Z.min_id.
    pose proof (p2_Z J_fr HJf) as Pz. pose proof (p2_pos J_fr) as Pp.
    assert (D1 : (1 <= Z.of_nat (length (s_psi1 (t_base s))) / 2 ^ J_fr)%Z) by (apply Z.div_le_lower_bound; lia).
    assert (D2 : 2 <= Nfr / p2 J_fr) by (apply Nat.div_le_lower_bound; [lia|unfold Nfr; lia]).
    lia.
Qed.
Print Assumptions C81_joint_global_refuted.

(** Three constant signals of any length N >= 4, in any format and output type, after a cast to double precision. *)
Example C81_instance : forall N out format, (4 <= N)%Z -> In out ["array"; "list"; "dict"]%string -> In format ["joint"; "time"]%string ->
  let l := [To F64] in
  let x := mk_nd Real [3; Z.to_nat N] (repeat (RtoC 1) (3 * Z.to_nat N)) in
  let t := mk_t F64 [3; Z.to_nat N] (repeat 1%R (3 * Z.to_nat N)) true in
  exists s y, TimeFrequencyScattering (fun _ _ => 1%Z) (default_jparams 2 N 8 1 TNone format) out = Ok s /\
    s_average (t_base s) = Ok Local /\ plain (dtype_after l) 2 x t /\ t_contig t = true /\ jtfs_scattering np sgnR s x = Ok y.
Proof.
  intros N out format HN Ho Hf l x t. destruct (default_object (fun _ _ => 1%Z) 2 N 8 1 out format) as [s Hs]; [intros; lia|lia|lia|lia|lia|].
  pose proof (default_int_Q 2 N 8 1 TNone format ltac:(lia)) as HQ. pose proof (default_strides 2 N 8 1 format) as Hd.
  assert (Hw : nd_wf x) by (unfold nd_wf, x; cbn; rewrite repeat_length; lia).
  destruct (C41_default_configurations_partial _ _ _ _ _ _ _ [3] x Hs Hd HQ) as (p0 & S & y & _ & Hy & _); [exact Ho|exact Hf|exact Hw|reflexivity|reflexivity|].
  destruct (default_aligned _ _ _ _ _ _ _ Hs Hd HQ) as [A _].
  exists s, y. split; [apply Hs|]. split; [apply A|]. split; [|split; [reflexivity|exact Hy]]. constructor; try reflexivity; try exact Hw.
  - apply Forall_forall. cbn [x nd_data]. intros z Hz. apply repeat_spec in Hz. now subst z.
  - cbn [x t nd_data t_data]. generalize (3 * Z.to_nat N). intros n. induction n; cbn; [reflexivity|]. now f_equal.
Qed.
(** An empty signal after a cast: NumPy raises, the wavelets having room, so torch raises too. *)
Example C81_exceptions_instance : forall N out format, (4 <= N)%Z -> In out ["array"; "list"; "dict"]%string -> In format ["joint"; "time"]%string ->
  let p := default_jparams 2 N 8 1 TNone format in
  let x := mk_nd Real [0] [] in
  exists s m m' e e', TimeFrequencyScattering (fun _ _ => 1%Z) p out = Ok s /\ (Z.of_nat (length (s_psi1 (t_base s))) <= f_N (t_phi_fr s))%Z /\
    jtfs_scattering np sgnR s x = Err e /\ TimeFrequencyScatteringTorch (fun _ _ => 1%Z) p out = Ok m /\ run_ops loadj [To F64] m = Ok m' /\
    forwardj m' (mk_t F64 [0] [] true) = Err e'.
Proof.
  intros N out format HN Ho Hf p x. destruct (default_object (fun _ _ => 1%Z) 2 N 8 1 out format) as [s Hs]; [intros; lia|lia|lia|lia|lia|].
  pose proof (default_int_Q 2 N 8 1 TNone format ltac:(lia)) as HQ. pose proof (default_strides 2 N 8 1 format) as Hd.
  destruct (default_aligned _ _ _ _ _ _ _ Hs Hd HQ) as [A _]. pose proof (al_room _ _ _ _ _ _ _ A) as Hroom.
  assert (exists e, jtfs_scattering np sgnR s x = Err e) as [e He].
  { unfold jtfs_scattering, jpaths. destruct (jcheck_runtime_args s); cbn [bind]; [|eauto]. cbn [be_shape numpy_backend x nd_shape]. cbn. eauto. }
  destruct (C81_exceptions_partial (fun _ _ => 1%Z) p out s [To F64] 1 x (mk_t F64 [0] [] true) e) as (m & m' & e' & Hm & R & F & _).
  - apply Hs.
  - intros Ea. rewrite (al_avg _ _ _ _ _ _ _ A) in Ea. discriminate.
  - exact Hroom.
  - constructor; try reflexivity. constructor.
  - reflexivity.
  - exact He.
  - exists s, m, m', e, e'. split; [apply Hs|]. auto.
Qed.
(** And for the refutation: J = 2, Q = 8, J_fr = 1. *)
Example C81_joint_global_instance : forall N, (4 <= N)%Z ->
  let x := mk_nd Real [3; Z.to_nat N] (repeat (RtoC 1) (3 * Z.to_nat N)) in
  let t := mk_t F32 [3; Z.to_nat N] (repeat 1%R (3 * Z.to_nat N)) true in
  exists m, TimeFrequencyScatteringTorch (fun _ _ => 1%Z) (global_jparams 2 N 8 1 "joint") "list" = Ok m /\ forwardj m t = Err RuntimeError.
Proof.
  intros N HN x t.
  destruct (C81_joint_global_refuted (fun _ _ => 1%Z) 2 N 8 1 [] [3] x t) as (s & y & m & m' & _ & _ & Hm & R & F); try lia; try reflexivity; try discriminate.
  - constructor; try reflexivity.
    + unfold nd_wf, x; cbn; rewrite repeat_length; lia.
    + apply Forall_forall. cbn [x nd_data]. intros z Hz. apply repeat_spec in Hz. now subst z.
    + cbn [x t nd_data t_data]. generalize (3 * Z.to_nat N). intros n. induction n; cbn; [reflexivity|]. now f_equal.
  - exists m. split; [exact Hm|]. cbn in R. injection R as <-. exact F.
Qed.
