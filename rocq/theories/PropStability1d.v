(** Property C85: Lipschitz stability of Scattering1D in the supremum norm, with an explicit constant.
    Property C86: the transform of a signal read backwards. *)
From Coq Require Import String Reals ZArith QArith List Bool Lia Lra Permutation.
From Coquelicot Require Import Complex.
From Verif Require Import Base BaseProofs NdArray Backend Core1d Utils1d Utils1dProofs Frontend1d Spec1d Core1dProofs
  Frontend1dProofs NdProofs Rows1d FrontRows Factory1d FactoryProofs ComplexOps FilterBank1d FilterBank1dProofs Construct1d
  Shape1d PropFilters1d PropShapes1d Dft Conv1d Value1d Tabulated1d PropNumerics1d Invariance1d Norm1d PropInvariance1d Stability1d.
Import ListNotations.
Local Open Scope Z_scope.
Local Open Scope res_scope.

(** ** C85 *)
Section Spec.
Variables (s : scat1d (nd C) R) (N : Z).
Notation Np := (padded_length s N).
(** The l1 norm of the impulse response of [f] sampled every 2^k instants (a Riemann sum; k = 0: its l1 norm). *)
Definition norm1 (f : Core1d.filter (nd C) R) (k : Z) : R :=
  (2 ^ Z.to_nat k * rsum (Np / 2 ^ Z.to_nat k) (fun u => Cmod (at_ (idft (lev f 0)) (2 ^ Z.to_nat k * u))))%R.
(** The Lipschitz constant of a path: the norms of the filters it goes through, each at the resolution at which it is
    applied; when the path is summed over time, times the number of instants summed. *)
Definition path_gain (a : avg) (ls : Z) (key : list nat) : R :=
  match key with
  | [] => match a with Local => norm1 (s_phi s) 0 | NoAvg => 1%R | Global => INR Np end
  | n1 :: key' =>
    match nth_error (s_psi1 s) n1 with
    | None => 0%R
    | Some f1 =>
      match key' with
      | [] => match a with
              | Local => (norm1 f1 0 * norm1 (s_phi s) (Z.min (f_j f1) ls))%R
              | NoAvg => norm1 f1 0
              | Global => (norm1 f1 0 * INR (Np / 2 ^ Z.to_nat (f_j f1)))%R
              end
      | n2 :: _ =>
        match nth_error (s_psi2 s) n2 with
        | None => 0%R
        | Some f2 =>
          match a with
          | Local => (norm1 f1 0 * norm1 f2 (Z.min (f_j f1) ls) * norm1 (s_phi s) (Z.min (f_j f2) ls))%R
          | NoAvg => (norm1 f1 0 * norm1 f2 (f_j f1))%R
          | Global => (norm1 f1 0 * norm1 f2 (f_j f1) * INR (Np / 2 ^ Z.to_nat (f_j f2)))%R
          end
        end
      end
    end
  end.
End Spec.

Lemma norm1_pos s N f k : (0 <= norm1 s N f k)%R.
Proof. unfold norm1. apply Rmult_le_pos; [apply pow_le; lra|]. apply rsum_pos. intros; apply Cmod_ge_0. Qed.
Lemma path_gain_pos s N a ls key : (0 <= path_gain s N a ls key)%R.
Proof.
  unfold path_gain. destruct key as [|n1 [|n2 key]].
  - destruct a; [apply norm1_pos|apply pos_INR|lra].
  - destruct (nth_error (s_psi1 s) n1) as [f1|]; [|lra]. destruct a; repeat first [apply norm1_pos | apply pos_INR | apply Rmult_le_pos].
  - destruct (nth_error (s_psi1 s) n1) as [f1|]; [|lra]. destruct (nth_error (s_psi2 s) n2) as [f2|]; [|lra].
    destruct a; repeat first [apply norm1_pos | apply pos_INR | apply Rmult_le_pos].
Qed.
Lemma gain_path support p out s N pl pr m ls a key : constructed support p out s N -> ready s (Z.to_nat N) pl pr m ls a ->
  padded_length s N = (pl + Z.to_nat N + pr)%nat ->
  valid_key (s_psi1 s) (s_psi2 s) (s_max_order s =? 2) key ->
  (gain (s_phi s) (s_psi1 s) (s_psi2 s) ls (is_local a) key *
    match a with Global => INR (padded_length s N / p2 (resolution (s_psi1 s) (s_psi2 s) ls false key)) | _ => 1 end)%R = path_gain s N a ls key.
Proof.
  intros Hc Rd ENp Hk. pose proof (rd_adm _ _ _ _ _ _ _ Rd) as Ha.
  assert (G : forall f k n, stored s f -> level_ok f k n -> 0 <= k -> l1 (idft (lev f k)) = norm1 s N f k).
  { intros f k n Hf Hl Hk0. unfold norm1. eapply stored_l1; eassumption. }
  assert (St1 : forall n f, nth_error (s_psi1 s) n = Some f -> stored s f) by (intros n f E; right; left; eapply nth_error_In; exact E).
  assert (St2 : forall n f, nth_error (s_psi2 s) n = Some f -> stored s f) by (intros n f E; right; right; eapply nth_error_In; exact E).
  assert (Sphi : stored s (s_phi s)) by now left.
  unfold p2.
  destruct Hk as [|n1 f1 E1|n1 n2 f1 f2 H2 E1 E2 Hj]; unfold gain, path_gain, resolution; rewrite ?E1, ?E2.
  - destruct a; cbn [is_local] in *.
    + destruct (adm_phi _ _ _ _ _ _ _ Ha eq_refl) as [_ Hp]. rewrite (G _ _ _ Sphi Hp ltac:(lia)). ring.
    + change (Z.to_nat 0) with 0%nat. rewrite Nat.pow_0_r, Nat.div_1_r. ring.
    + ring.
  - destruct (adm_psi1 _ _ _ _ _ _ _ Ha f1 (nth_error_In _ _ E1)) as (G1 & G2 & G3 & G4).
    rewrite (G _ _ _ (St1 _ _ E1) G2 ltac:(lia)).
    destruct a; cbn [is_local] in *; try ring. specialize (G4 eq_refl). unfold kk in *.
    pose proof (adm_ls _ _ _ _ _ _ _ Ha). rewrite (G _ _ _ Sphi G4 ltac:(lia)). ring.
  - destruct (adm_psi1 _ _ _ _ _ _ _ Ha f1 (nth_error_In _ _ E1)) as (G1 & G2 & G3 & G4).
    destruct (adm_psi2 _ _ _ _ _ _ _ Ha H2 f1 f2 (nth_error_In _ _ E1) (nth_error_In _ _ E2) Hj) as (Q1 & _ & Q3).
    pose proof (adm_ls _ _ _ _ _ _ _ Ha).
    rewrite (G _ _ _ (St1 _ _ E1) G2 ltac:(lia)).
    assert (0 <= kk ls (is_local a) f1) by (unfold kk; destruct (is_local a); lia).
    rewrite (G _ _ _ (St2 _ _ E2) Q1 ltac:(lia)).
    destruct a; cbn [is_local] in *; unfold kk in *; try ring. specialize (Q3 eq_refl).
    rewrite (G _ _ _ Sphi Q3 ltac:(lia)). ring.
Qed.

Theorem C85_lipschitz : forall support p out s N a ls batch x y l,
  constructed support p out s N -> s_average s = Ok a -> s_log2_stride s = Ok ls ->
  nd_wf x -> nd_shape x = batch ++ [Z.to_nat N] -> (0 < prod batch)%nat ->
  scattering np (with_out s "list") x = Ok (OutList l) ->
  nd_wf y -> nd_dtype y = Real -> nd_shape y = nd_shape x ->
  exists l', scattering np (with_out s "list") y = Ok (OutList l') /\ map p_n l' = map p_n l /\
    forall q q' i D, In q l -> In q' l' -> p_n q' = p_n q -> (i < prod batch)%nat ->
      (forall u, (u < Z.to_nat N)%nat -> (Cmod (at_ (signal (Z.to_nat N) i x) u - at_ (signal (Z.to_nat N) i y) u)%C <= D)%R) ->
      exists L, nd_shape (p_coef q) = batch ++ [L] /\ nd_shape (p_coef q') = batch ++ [L] /\
        forall t, (t < L)%nat ->
          (Cmod (at_ (signal L i (p_coef q)) t - at_ (signal L i (p_coef q')) t)%C <= path_gain s N a ls (p_n q) * D)%R.
Proof.
  intros support p out s N a ls batch x y l Hc Ea Els Hw Hsh Hb Hrun Hwy Hdy Hsy. rewrite Hsh in Hsy.
  destruct (run_both _ _ _ _ _ batch x y l Hc Hw Hsh Hb Hrun Hwy Hdy Hsy) as (l' & pl & pr & m & ls' & a' & Hr & Ek & Rd & F).
  rewrite (rd_avg _ _ _ _ _ _ _ Rd) in Ea. injection Ea as ->. rewrite (rd_stride _ _ _ _ _ _ _ Rd) in Els. injection Els as ->.
  exists l'. split; [exact Hr|]. split; [exact Ek|]. intros q q' i D Hq Hq' Eq Hi HD.
  destruct (F q q' Hq Hq' Eq) as (Hk & S1 & S2 & V). cbv zeta in V. exists (final_len s (Z.to_nat N) pl ls a (p_n q)).
  split; [exact S1|]. split; [exact S2|]. destruct (V i Hi) as (L1 & L2 & -> & ->). clear V.
  pose proof (rd_l _ _ _ _ _ _ _ Rd) as Hl. pose proof (rd_r _ _ _ _ _ _ _ Rd) as Hr'. pose proof (rd_adm _ _ _ _ _ _ _ Rd) as Ha.
  assert (ENp : padded_length s N = (pl + Z.to_nat N + pr)%nat).
  { unfold padded_length. rewrite (rd_left _ _ _ _ _ _ _ Rd), (rd_right _ _ _ _ _ _ _ Rd). lia. }
  pose proof (gain_path _ _ _ _ _ _ _ _ _ _ _ Hc Rd ENp Hk) as EG.
  set (xs := signal (Z.to_nat N) i x) in *. set (ys := signal (Z.to_nat N) i y) in *.
  assert (Hcl : close D xs ys) by (split; [congruence|]; rewrite L1; exact HD).
  apply (close_pad D pl pr (Z.to_nat N)) in Hcl; try assumption.
  apply (value_close _ _ _ _ _ _ _ Ha D _ _ (p_n q)) in Hcl; [|apply pad_row_length|exact Hk].
  assert (Lv : List.length (value complex_ops (s_phi s) (s_psi1 s) (s_psi2 s) (pl + Z.to_nat N + pr) ls (is_local a) (p_n q)
                 (pad_reflect_row complex_ops pl pr (Z.to_nat N) xs)) = ((pl + Z.to_nat N + pr) / p2 (resolution (s_psi1 s) (s_psi2 s) ls (is_local a) (p_n q)))%nat).
  { apply (value_length _ _ _ (s_max_order s =? 2)); [exact Ha|apply pad_row_length|exact Hk]. }
  unfold final, final_len. intros t Ht. 
  set (vx := value _ _ _ _ _ _ _ _ (pad_reflect_row complex_ops pl pr (Z.to_nat N) xs)) in *.
  set (vy := value _ _ _ _ _ _ _ _ (pad_reflect_row complex_ops pl pr (Z.to_nat N) ys)) in *.
  assert (D0 : (0 <= D)%R).
  { destruct Hc as (_ & _ & _ & HN & _). eapply Rle_trans; [apply Cmod_ge_0|]. apply (HD 0%nat). lia. }
  assert (Hs : a <> Global -> (t < hi (Z.to_nat N) pl (res_of s ls a (p_n q)) - lo pl (res_of s ls a (p_n q)))%nat ->
    (Cmod (at_ (slice (lo pl (res_of s ls a (p_n q))) (hi (Z.to_nat N) pl (res_of s ls a (p_n q))) vx) t -
          at_ (slice (lo pl (res_of s ls a (p_n q))) (hi (Z.to_nat N) pl (res_of s ls a (p_n q))) vy) t)%C <= path_gain s N a ls (p_n q) * D)%R).
  { intros Hne Ht'. rewrite <- EG. replace (match a with Global => _ | _ => 1%R end) with 1%R by (destruct a; congruence).
    rewrite Rmult_1_r, (Rmult_comm _ D). unfold at_. rewrite !nth_slice by exact Ht'. fold (at_ vx) (at_ vy).
    change (nth ?n vx (RtoC 0)) with (at_ vx n). change (nth ?n vy (RtoC 0)) with (at_ vy n).
    destruct Hcl as [Hll Hcl]. destruct (Nat.lt_ge_cases (lo pl (res_of s ls a (p_n q)) + t) (List.length vx)) as [Hlt|Hge]; [now apply Hcl|].
    rewrite !at_over by lia. replace (RtoC 0 - RtoC 0)%C with (RtoC 0) by ring. rewrite Cmod_0.
    pose proof (path_gain_pos s N a ls (p_n q)) as G0. rewrite <- EG in G0.
    replace (match a with Global => _ | _ => 1%R end) with 1%R in G0 by (destruct a; congruence). nra. }
  destruct a; [apply Hs; [discriminate|exact Ht]| |apply Hs; [discriminate|exact Ht]].
  assert (t = 0)%nat by lia. subst t. unfold at_. cbn [nth]. rewrite !osum_at.
  eapply Rle_trans; [apply (close_sum _ _ _ Hcl)|]. rewrite Lv. cbn [is_local] in *. rewrite <- EG, ENp. lra.
Qed.
Print Assumptions C85_lipschitz.

(** At stride 1, and up to the first order when there is no averaging, the transform does not increase distances. *)
Lemma norm1_0 s N f : norm1 s N f 0 = rsum (padded_length s N) (fun n => Cmod (at_ (idft (lev f 0)) n)).
Proof.
  unfold norm1. change (Z.to_nat 0) with 0%nat. rewrite Nat.pow_0_r, Nat.div_1_r. cbn [pow]. rewrite Rmult_1_l.
  apply rsum_ext. intros i Hi. now rewrite Nat.mul_1_l.
Qed.
Theorem C85_nonexpansive : forall support p out s N a ls batch x y l l',
  constructed support p out s N -> s_average s = Ok a -> s_log2_stride s = Ok ls ->
  2 <= N ->
  nd_wf x -> nd_shape x = batch ++ [Z.to_nat N] -> nd_wf y -> nd_shape y = nd_shape x ->
  scattering np (with_out s "list") x = Ok (OutList l) -> scattering np (with_out s "list") y = Ok (OutList l') ->
  forall q q' i L t D, In q l -> In q' l' -> p_n q' = p_n q -> (i < prod batch)%nat -> nd_shape (p_coef q) = batch ++ [L] -> (t < L)%nat ->
    (a = Local /\ ls = 0) \/ (a = NoAvg /\ (List.length (p_n q) <= 1)%nat) ->
    (forall u, (u < Z.to_nat N)%nat -> (Cmod (at_ (signal (Z.to_nat N) i x) u - at_ (signal (Z.to_nat N) i y) u)%C <= D)%R) ->
    (Cmod (at_ (signal L i (p_coef q)) t - at_ (signal L i (p_coef q')) t)%C <= D)%R.
Proof.
  intros support p out s N a ls batch x y l l' Hc Ea Els Hn Hw Hsh Hwy Hsy Hrun Hruny q q' i L t D Hq Hq' Eq Hi HL Ht Hcase HD.
  assert (Hdy : nd_dtype y = Real).
  { destruct Hc as (Hsup & H & EN & HN & HJ & Hmo). rewrite Hsh in Hsy.
    now destruct (run_final _ _ _ _ _ _ _ _ Hsup H EN HN HJ Hmo Hwy Hsy ltac:(lia) Hruny) as (Hd & _). }
  destruct (C85_lipschitz _ _ _ _ _ _ _ batch x y l Hc Ea Els Hw Hsh ltac:(lia) Hrun Hwy Hdy Hsy) as (l1 & Hr1 & _ & F).
  rewrite Hruny in Hr1. injection Hr1 as <-. destruct (F q q' i D Hq Hq' Eq Hi HD) as (L' & S1 & S2 & B).
  rewrite S1 in HL. apply app_inj_tail in HL. destruct HL as [_ <-]. eapply Rle_trans; [apply B; exact Ht|].
  enough (path_gain s N a ls (p_n q) = 1)%R as -> by lra.
  assert (Hk : valid_key (s_psi1 s) (s_psi2 s) (s_max_order s =? 2) (p_n q)).
  { destruct Hc as (Hsup & H & EN & HN & HJ & Hmo).
    destruct (run_final _ _ _ _ _ _ _ _ Hsup H EN HN HJ Hmo Hw Hsh ltac:(lia) Hrun) as (_ & pl & pr & m & ls' & a' & Rd & F').
    rewrite Forall_forall in F'. apply (F' q Hq). }
  assert (Hj : forall f, In f (s_psi1 s) -> 0 <= f_j f).
  { destruct Hc as (Hsup & H & EN & HN & HJ & Hmo). intros f Hf.
    destruct (run_final _ _ _ _ _ _ _ _ Hsup H EN HN HJ Hmo Hw Hsh ltac:(lia) Hrun) as (_ & pl & pr & m & ls' & a' & Rd & _).
    apply (adm_psi1 _ _ _ _ _ _ _ (rd_adm _ _ _ _ _ _ _ Rd) f Hf). }
  destruct (C32_l1_normalised _ _ _ _ _ Hc) as (P1 & P2 & _).
  assert (Q1 : norm1 s N (s_phi s) 0 = 1%R) by (rewrite norm1_0; exact P1).
  assert (Q2 : forall f, In f (s_psi1 s) \/ In f (s_psi2 s) -> norm1 s N f 0 = 1%R) by (intros f Hf; rewrite norm1_0; apply P2; auto).
  clear - Hk Hcase Hj Q1 Q2. destruct Hk as [|n1 f1 E1|n1 n2 f1 f2 H2 E1 E2 Hjj]; unfold path_gain; rewrite ?E1, ?E2.
  - destruct Hcase as [[E0 E3]|[E0 _]]; subst a; [exact Q1|reflexivity].
  - pose proof (or_introl (B := In f1 (s_psi2 s)) (nth_error_In _ _ E1)) as I1.
    destruct Hcase as [[E0 E3]|[E0 _]]; subst a; [subst ls|]; rewrite (Q2 f1 I1); [|reflexivity].
    rewrite Z.min_r by (apply Hj; eapply nth_error_In; exact E1). rewrite Q1. ring.
  - pose proof (or_introl (B := In f1 (s_psi2 s)) (nth_error_In _ _ E1)) as I1.
    pose proof (or_intror (A := In f2 (s_psi1 s)) (nth_error_In _ _ E2)) as I2.
    destruct Hcase as [[E0 E3]|[E0 Hlen]]; subst a; [subst ls|cbn in Hlen; lia]. rewrite (Q2 f1 I1).
    pose proof (Hj f1 (nth_error_In _ _ E1)). rewrite (Z.min_r (f_j f1)), (Z.min_r (f_j f2)) by lia. rewrite (Q2 f2 I2), Q1. ring.
Qed.
Print Assumptions C85_nonexpansive.

(** ** C86 *)
Lemma nth_firstn_lt {A} k (l : list A) z i : (i < k)%nat -> nth i (firstn k l) z = nth i l z.
Proof. revert l i. induction k; intros [|x l] i H; try lia; destruct i; cbn; auto; apply IHk; lia. Qed.
Lemma nth_skipn_at {A} k (l : list A) z i : nth i (skipn k l) z = nth (k + i) l z.
Proof. revert l. induction k; intros [|x l]; cbn; auto. destruct i; reflexivity. Qed.
(** [U] is a padded batch of real signals, [U'] the same with every signal read backwards around instant 0. *)
Theorem C86_reversal : forall support p out s N ls pre (U U' : nd C) gen,
  constructed support p out s N -> s_log2_stride s = Ok ls ->
  nd_wf U -> nd_shape U = pre ++ [padded_length s N] -> (0 < prod pre)%nat -> (forall n, Im (at_ (nd_data U) n) = 0%R) ->
  nd_wf U' -> nd_dtype U' = Real -> nd_shape U' = nd_shape U ->
  (forall i, (i < prod pre)%nat -> signal (padded_length s N) i U' = reversed (signal (padded_length s N) i U)) ->
  scattering1d np U (s_phi s) (psis_of s) ls true = Ok gen ->
  exists gen', scattering1d np U' (s_phi s) (psis_of s) ls true = Ok gen' /\ map p_n gen' = map p_n gen /\
   forall q q', In q gen -> In q' gen' -> p_n q' = p_n q ->
     exists L, Z.of_nat (padded_length s N) = Z.of_nat L * 2 ^ ls /\
       nd_shape (p_coef q) = pre ++ [L] /\ nd_shape (p_coef q') = pre ++ [L] /\
       forall i, (i < prod pre)%nat -> signal L i (p_coef q') = reversed (signal L i (p_coef q)).
Proof.
  intros support p out s N ls pre U U' gen Hc0 Els Hw Hsh Hb HR Hw' Hd' Hsh' Hrot Hg. pose proof Hc0 as (Hsup & H & EN & HN & HJ & Hmo).
  destruct (core_adm _ _ _ _ _ _ _ _ _ Hsup H EN HN HJ Hmo Els Hsh Hb Hg) as (Hd & Ha).
  set (Np := padded_length s N) in *. pose proof (new_order _ _ _ _ H) as Emo.
  assert (Epsis : psis_of s = if s_max_order s =? 2 then [s_psi1 s; s_psi2 s] else [s_psi1 s]).
  { destruct (psis_of_cases s ltac:(lia)) as [[X1 X2]|[X1 X2]]; rewrite X2, X1; reflexivity. }
  rewrite Hsh in Hsh'.
  destruct (of_rows_intro U pre Np Hw Hsh) as (rows & EU & Hr). rewrite Hd in EU.
  destruct (of_rows_intro U' pre Np Hw' Hsh') as (rows' & EU' & Hr'). rewrite Hd' in EU'.
  destruct (scattering1d_rows complex_ops complex_ops_ok _ _ _ _ _ _ _ _ _ Hr Ha) as (g1 & E1 & F1).
  destruct (scattering1d_rows complex_ops complex_ops_ok _ _ _ _ _ _ _ _ _ Hr' Ha) as (g2 & E2 & F2).
  rewrite <- EU, <- Epsis in E1. rewrite <- EU', <- Epsis in E2.
  assert (g1 = gen) by congruence. subst g1. clear E1.
  exists g2. split; [exact E2|]. split.
  { rewrite Epsis in Hg, E2. destruct (s_max_order s =? 2); rewrite (scattering1d_keys np _ _ _ _ _ _ _ Hg), (scattering1d_keys np _ _ _ _ _ _ _ E2); reflexivity. }
  intros q q' Hq Hq' Eq. rewrite Forall_forall in F1, F2. destruct (F1 q Hq) as [C1 R1]. destruct (F2 q' Hq') as [C2 R2].
  rewrite Eq in C2, R2.
  change (resolution (s_psi1 s) (s_psi2 s) ls true (p_n q)) with ls in C1, R1, C2, R2. exists (Np / p2 ls)%nat.
  pose proof (adm_ls _ _ _ _ _ _ _ Ha) as Hls. destruct (adm_phi _ _ _ _ _ _ _ Ha eq_refl) as [[m Hm] _].
  split. { rewrite <- p2_Z by exact Hls. rewrite Hm at 1. pose proof (p2_pos ls). rewrite Hm, Nat.div_mul by lia. lia. }
  rewrite C1, C2. split; [reflexivity|]. split; [reflexivity|]. intros i Hi.
  assert (Hrr : all_real (nth i rows [])).
  { intros n. destruct (Nat.lt_ge_cases n Np) as [Hn|Hn].
    - rewrite <- (signal_of Real pre Np rows i Hr), <- EU. unfold signal, at_. rewrite nth_firstn_lt by exact Hn. rewrite nth_skipn_at.
      apply HR.
    - rewrite at_over; [reflexivity|]. destruct Hr as [Hr1 Hr2]. rewrite Forall_forall in Hr2. rewrite (Hr2 (nth i rows [])); [exact Hn|apply nth_In; lia]. }
  rewrite !signal_of by assumption. specialize (Hrot i Hi). rewrite EU, EU', !signal_of in Hrot by assumption.
  rewrite (nth_indep (map _ rows') [] (value complex_ops (s_phi s) (s_psi1 s) (s_psi2 s) Np ls true (p_n q) [])) by (rewrite map_length; destruct Hr'; lia).
  rewrite (nth_indep (map _ rows) [] (value complex_ops (s_phi s) (s_psi1 s) (s_psi2 s) Np ls true (p_n q) [])) by (rewrite map_length; destruct Hr; lia).
  rewrite !map_nth, Hrot.
  apply (value_reversed _ _ _ (s_max_order s =? 2) _ _ _ Ha); [reflexivity| | |exact Hrr|].
  - destruct Hr as [Hr1 Hr2]. rewrite Forall_forall in Hr2. apply Hr2. apply nth_In. lia.
  - eapply gen_valid; [lia|exact Hg|exact Hq].
  - intros f k n Hf Hl. eapply stored_real; [exact Hc0|exact Hf|exact Hl].
Qed.
Print Assumptions C86_reversal.

(** The transform of a signal and of the signal read backwards, with stride 1 and equal paddings (any even length). *)
Lemma pad_backwards n l (x y : list C) u : (l < n)%nat -> List.length x = n -> List.length y = n ->
  (forall v, (v < n)%nat -> at_ y v = at_ x (n - 1 - v)) -> (u < l + n + l)%nat ->
  at_ (pad_reflect_row complex_ops l l n y) u = at_ (pad_reflect_row complex_ops l l n x) (l + n + l - 1 - u).
Proof.
  intros Hl Lx Ly Hy Hu. rewrite !at_pad by lia. rewrite Hy by (apply (reflect_lt n l l); assumption). f_equal.
  unfold reflect_index.
  destruct (Z.ltb_spec (Z.of_nat u - Z.of_nat l) 0); [|destruct (Z.ltb_spec (Z.of_nat u - Z.of_nat l) (Z.of_nat n))];
  (destruct (Z.ltb_spec (Z.of_nat (l + n + l - 1 - u) - Z.of_nat l) 0); [|destruct (Z.ltb_spec (Z.of_nat (l + n + l - 1 - u) - Z.of_nat l) (Z.of_nat n))]); lia.
Qed.
Theorem C86_signal : forall support p out s N batch x y l,
  constructed support p out s N -> s_average s = Ok Local -> s_log2_stride s = Ok 0 -> s_pad_left s = s_pad_right s ->
  nd_wf x -> nd_shape x = batch ++ [Z.to_nat N] -> (0 < prod batch)%nat -> (forall n, Im (at_ (nd_data x) n) = 0%R) ->
  scattering np (with_out s "list") x = Ok (OutList l) ->
  nd_wf y -> nd_dtype y = Real -> nd_shape y = nd_shape x ->
  (forall i u, (i < prod batch)%nat -> (u < Z.to_nat N)%nat ->
     at_ (signal (Z.to_nat N) i y) u = at_ (signal (Z.to_nat N) i x) (Z.to_nat N - 1 - u)) ->
  exists l', scattering np (with_out s "list") y = Ok (OutList l') /\ map p_n l' = map p_n l /\
    forall q q', In q l -> In q' l' -> p_n q' = p_n q ->
      nd_shape (p_coef q) = batch ++ [Z.to_nat N] /\ nd_shape (p_coef q') = batch ++ [Z.to_nat N] /\
      forall i t, (i < prod batch)%nat -> (t < Z.to_nat N)%nat ->
        at_ (signal (Z.to_nat N) i (p_coef q')) t = at_ (signal (Z.to_nat N) i (p_coef q)) (Z.to_nat N - 1 - t).
Proof.
  intros support p out s N batch x y l Hc Ea Els Hpad Hw Hsh Hb HR Hrun Hwy Hdy Hsy Hy. rewrite Hsh in Hsy.
  destruct (run_both _ _ _ _ _ batch x y l Hc Hw Hsh Hb Hrun Hwy Hdy Hsy) as (l' & pl & pr & m & ls & a & Hr & Ek & Rd & F).
  rewrite (rd_avg _ _ _ _ _ _ _ Rd) in Ea. injection Ea as ->. rewrite (rd_stride _ _ _ _ _ _ _ Rd) in Els. injection Els as ->.
  exists l'. split; [exact Hr|]. split; [exact Ek|]. intros q q' Hq Hq' Eq.
  destruct (F q q' Hq Hq' Eq) as (Hk & S1 & S2 & V). cbv zeta in V.
  assert (pr = pl) by (rewrite (rd_left _ _ _ _ _ _ _ Rd), (rd_right _ _ _ _ _ _ _ Rd) in Hpad; lia). subst pr.
  set (n := Z.to_nat N) in *.
  assert (Elo : lo pl 0 = pl) by (unfold lo, cdiv; change (2 ^ 0) with 1; rewrite Z.div_1_r; lia).
  assert (Ehi : hi n pl 0 = (pl + n)%nat) by (unfold hi, cdiv; change (2 ^ 0) with 1; rewrite Z.div_1_r; lia).
  assert (EL : final_len s n pl 0 Local (p_n q) = n).
  { unfold final_len. change (res_of s 0 Local (p_n q)) with 0. rewrite Elo, Ehi. lia. }
  rewrite EL in *. split; [exact S1|]. split; [exact S2|]. intros i t Hi Ht. destruct (V i Hi) as (L1 & L2 & -> & ->). clear V.
  pose proof (rd_l _ _ _ _ _ _ _ Rd) as Hl. pose proof (rd_adm _ _ _ _ _ _ _ Rd) as Ha. cbn [is_local] in Ha.
  specialize (Hy i). set (xs := signal n i x) in *. set (ys := signal n i y) in *.
  unfold final. cbn [is_local]. change (res_of s 0 Local (p_n q)) with 0. rewrite Elo, Ehi. unfold at_. rewrite !nth_slice by lia.
  set (px := pad_reflect_row complex_ops pl pl n xs).
  assert (Lpx : List.length px = (pl + n + pl)%nat) by apply pad_row_length.
  set (val := value complex_ops (s_phi s) (s_psi1 s) (s_psi2 s) (pl + n + pl) 0 true (p_n q)).
  change (nth (pl + t) (val (pad_reflect_row complex_ops pl pl n ys)) (RtoC 0)) with (at_ (val (pad_reflect_row complex_ops pl pl n ys)) (pl + t)).
  change (nth (pl + (n - 1 - t)) (val px) (RtoC 0)) with (at_ (val px) (pl + (n - 1 - t))).
  assert (Ep : pad_reflect_row complex_ops pl pl n ys = rotate (Z.of_nat (p2 0) * (Z.of_nat (pl + n + pl) - 1)) (reversed px)).
  { apply list_ext; [now rewrite rotate_length, reversed_length, Lpx, pad_row_length|]. rewrite pad_row_length. intros u Hu.
    rewrite at_rotate by (rewrite reversed_length, Lpx; exact Hu). rewrite reversed_length, Lpx.
    pose proof (Z.mod_pos_bound (Z.of_nat u - Z.of_nat (p2 0) * (Z.of_nat (pl + n + pl) - 1)) (Z.of_nat (pl + n + pl)) ltac:(lia)) as B.
    rewrite at_reversed by (rewrite Lpx; lia). rewrite Lpx, Z2Nat.id by lia.
    rewrite (pad_backwards n pl xs ys u); try assumption; [|intros v Hv; apply Hy; assumption]. fold px. f_equal.
    assert (Eo : forall a b, 0 < b -> (- (a mod b)) mod b = (- a) mod b).
    { intros a b Hb0. rewrite <- (Z.sub_0_l (a mod b)), <- (Z.sub_0_l a), Zminus_mod_idemp_r. reflexivity. }
    rewrite Eo by lia. rewrite p2_0. change (Z.of_nat 1) with 1. rewrite Z.mod_small by lia. lia. }
  assert (Hpr : all_real px).
  { intros u. destruct (Nat.lt_ge_cases u (pl + n + pl)) as [Hu|Hu].
    - unfold px. rewrite at_pad by exact Hu. unfold xs, signal, at_.
      pose proof (reflect_lt n pl pl u Hl Hl Hu). rewrite nth_firstn_lt by assumption. rewrite nth_skipn_at. apply HR.
    - rewrite at_over by lia. reflexivity. }
  rewrite Ep. unfold val at 1.
  rewrite (value_rotate _ _ _ _ _ _ _ Ha) by (try reflexivity; try exact Hk; now rewrite reversed_length, Lpx).
  rewrite (value_reversed _ _ _ _ _ _ _ Ha); try assumption; try reflexivity.
  2:{ intros f k n0 Hf Hlv. eapply stored_real; [exact Hc|exact Hf|exact Hlv]. }
  fold val. assert (Lv : List.length (val px) = (pl + n + pl)%nat).
  { unfold val. rewrite (value_length _ _ _ (s_max_order s =? 2)) by assumption. change (resolution _ _ 0 true (p_n q)) with 0. now rewrite p2_0, Nat.div_1_r. }
  rewrite at_rotate by (rewrite reversed_length, Lv; lia). rewrite reversed_length, Lv.
  pose proof (Z.mod_pos_bound (Z.of_nat (pl + t) - (Z.of_nat (pl + n + pl) - 1)) (Z.of_nat (pl + n + pl)) ltac:(lia)) as B.
  rewrite at_reversed by (rewrite Lv; lia). rewrite Lv, Z2Nat.id by lia. f_equal.
  rewrite <- (Z.sub_0_l (_ mod _)), Zminus_mod_idemp_r, Z.mod_small by lia. lia.
Qed.
Print Assumptions C86_signal.

(** ** Instances *)
(** J = 4, Q = 1, N = 100, stride 1, local averaging: equal paddings, non-zero normalisers, and runs on any batch. *)
Theorem stride_one_object : exists s,
  constructed (fun _ _ => 30) (mk_params 4 100 (QInt 1) TNone (SInt 1) 2) "list" s 100 /\
  s_average s = Ok Local /\ s_log2_stride s = Ok 0 /\ padded_length s 100 = 256%nat /\ s_pad_left s = 78 /\ s_pad_right s = 78 /\
  (forall f, In f (s_psi1 s) \/ In f (s_psi2 s) -> normalised 256 f) /\
  forall b x, nd_wf x -> nd_dtype x = Real -> nd_shape x = [b; 100]%nat ->
    exists l, scattering np (with_out s "list") x = Ok (OutList l) /\
      map p_n l = [[]; [0]; [1]; [2]; [3]; [4]; [0; 3]; [0; 4]; [1; 3]; [1; 4]; [2; 3]; [2; 4]; [3; 4]]%nat.
Proof.
  set (p := mk_params 4 100 (QInt 1) TNone (SInt 1) 2).
  assert (H30 : forall (n : Z) (t : Q), 0 <= 30) by (intros; lia).
  assert (EN : N_input_of (p_shape p) = Ok 100) by reflexivity.
  assert (HJ : 0 <= p_J p) by (cbn; lia). assert (Hmo : 1 <= p_max_order p <= 2) by (cbn; lia).
  assert (EQ : Q_of (p_Q p) = Ok [QI 1; QI 1]) by reflexivity.
  assert (ET : T_of TNone 4 100 = Ok (Qpower 2 4)) by reflexivity.
  assert (El2 : log2_T_of TNone 4 100 = Ok 4) by (unfold log2_T_of; rewrite ET; reflexivity).
  destruct (build_total (fun _ _ => 30) p 100 (SInt 1) (Qpower 2 4)) as [b Hb]; try assumption; try reflexivity; try lia.
  destruct (build_inv _ _ _ Hb) as (st & T' & l' & r & EN' & EO & ET' & EP & Eb).
  assert (EbN : b_N b = 100) by congruence. rewrite EbN in *.
  cbn in EO. injection EO as <-.
  assert (ENp : b_Npad b = 256) by (rewrite Eb; reflexivity).
  destruct (new_total (fun _ _ => 30) p "list" b 1 1 4) as [s Hs]; try assumption; try lia.
  { rewrite ENp. cbn. lia. }
  exists s. assert (Hc : constructed (fun _ _ => 30) p "list" s 100) by (unfold constructed; repeat split; (assumption || lia)).
  split; [exact Hc|].
  pose proof Hs as Hs'. apply new_inv in Hs'. destruct Hs' as (b' & Qs & T'' & l & phi & psi1s & psi2s & Hb' & _ & _ & _ & _ & _ & Es).
  assert (b' = b) by congruence. subst b'.
  assert (Ea : s_average s = Ok Local) by (rewrite Es, EbN; reflexivity).
  assert (Els : s_log2_stride s = Ok 0) by (rewrite Es, Eb; reflexivity).
  assert (EL : padded_length s 100 = 256%nat).
  { destruct (build_plan (fun _ _ => 30) p b H30 Hb) as (_ & _ & _ & _ & B4 & _); [lia|].
    unfold padded_length. rewrite Es. cbn [s_pad_left s_pad_right]. rewrite EbN in B4. rewrite B4, ENp. reflexivity. }
  assert (Epad : s_pad_left s = 78 /\ s_pad_right s = 78).
  { rewrite Es, Eb. cbn in ET'. injection ET' as <-. vm_compute in EP. injection EP as <- <-. split; reflexivity. }
  destruct Epad as [Epl Epr].
  destruct (new_banks _ _ _ _ Hs _ _ EQ) as (P1 & P2 & J1 & J2). change (p_J p) with 4 in P1, P2.
  pose proof (anden_unique _ _ _ _ _ _ (anden_list_ok 4 1 ltac:(lia) ltac:(lia)) (anden_Q1 4 ltac:(lia))) as E.
  change (seq 0 (S (Z.to_nat 4))) with [0; 1; 2; 3; 4]%nat in E.
  assert (G : forall fs : list (Core1d.filter (nd C) R), map params_of fs = anden_list 4 1 sigma0 r_psi ->
     Forall (fun f => f_j f = scale (f_xi f) (f_sigma f)) fs -> map f_j fs = [0; 0; 0; 1; 2] /\ forall f, In f fs -> normalised 256 f).
  { intros fs Hp Hj. rewrite E in Hp. split.
    - transitivity (map (fun a => scale (fst a) (snd a)) (map params_of fs)).
      + clear - Hj. induction Hj as [|f fs Ef _ IH]; [reflexivity|]. cbn [map params_of fst snd]. now rewrite Ef, IH.
      + rewrite Hp, map_map. cbn [map fst snd]. now rewrite !scale_Q1.
    - intros f Hf. apply (in_map params_of) in Hf. rewrite Hp in Hf. apply in_map_iff in Hf. destruct Hf as (k & Ek & Hk).
      unfold params_of in Ek. injection Ek as Ex Es'. unfold normalised. rewrite <- Ex, <- Es'. apply Rgt_not_eq.
      pose proof rho_1 as R1. assert (Hk' : (1 <= 2 ^ k <= 16)%R) by (cbn in Hk; decompose [or] Hk; subst; cbn; lra || contradiction).
      assert (I0 : (/ 16 <= / 2 ^ k <= 1)%R) by (split; [apply Rinv_le_contravar; lra|rewrite <- Rinv_1; apply Rinv_le_contravar; lra]).
      unfold Rdiv. set (z := (/ 2 ^ k)%R) in *.
      apply wavelet_nonzero; [lia|nra|nra|nra|]. replace (INR 256) with 256%R by (rewrite INR_IZR_INZ; reflexivity). nra. }
  destruct (G _ P1 J1) as [F1 N1]. destruct (G _ P2 J2) as [F2 N2].
  split; [exact Ea|]. split; [exact Els|]. split; [exact EL|]. split; [exact Epl|]. split; [exact Epr|].
  split; [intros f [Hf|Hf]; auto|].
  intros n x Hw Hd Hsh.
  destruct (new_ready complex_ops formulas1d formulas1d_sane (fun _ _ => 30) p "list" s 100 1 1 0 Local 4) as (pl & pr & Rd);
    try assumption; try lia; try reflexivity; try (intros; lia).
  destruct (of_rows_intro x [n] 100 Hw Hsh) as (rows & Ex & Hr). rewrite Hd in Ex.
  destruct (paths_rows complex_ops complex_ops_ok s _ _ _ _ _ _ Rd [n] rows Hr) as (S & ES & _). change (Z.to_nat 100) with 100%nat in ES. rewrite <- Ex in ES.
  exists (sort_paths S). split; [eapply (list_run s Local [n] 100); eassumption|].
  pose proof (new_order _ _ _ _ Hs) as Emo.
  rewrite (paths_sorted_keys np s x S) by (try exact ES; rewrite Emo; exact Hmo).
  unfold j1s, j2s. rewrite F1, F2, Emo. reflexivity.
Qed.
Print Assumptions stride_one_object.

Definition ramp : nd C := mk_nd Real [2; 100]%nat (map (fun i => RtoC (INR i)) (seq 0 200)).
(** The same two signals read backwards. *)
Definition ramp_back : nd C := mk_nd Real [2; 100]%nat (map (fun i => RtoC (INR (i / 100 * 100 + (99 - i mod 100)))) (seq 0 200)).
(** The hypotheses of C85 (also with global and without averaging), of its corollary and of C86 hold on two signals. *)
Example C85_C86_instance : exists s l l',
  constructed (fun _ _ => 30) (mk_params 4 100 (QInt 1) TNone (SInt 1) 2) "list" s 100 /\
  s_average s = Ok Local /\ s_log2_stride s = Ok 0 /\ s_pad_left s = s_pad_right s /\
  (forall f, In f (s_psi1 s) \/ In f (s_psi2 s) -> normalised (padded_length s 100) f) /\
  nd_wf ramp /\ nd_wf ramp_back /\ (forall n, Im (at_ (nd_data ramp) n) = 0%R) /\
  scattering np (with_out s "list") ramp = Ok (OutList l) /\ In [0; 4]%nat (map p_n l) /\
  scattering np (with_out s "list") ramp_back = Ok (OutList l') /\
  (forall i u, (i < 2)%nat -> (u < 100)%nat -> at_ (signal 100 i ramp_back) u = at_ (signal 100 i ramp) (100 - 1 - u)).
Proof.
  destruct stride_one_object as (s & Hc & Ea & Els & EL & Epl & Epr & Hn & Run).
  destruct (Run 2%nat ramp eq_refl eq_refl eq_refl) as (l & Hl & Hk).
  destruct (Run 2%nat ramp_back eq_refl eq_refl eq_refl) as (l' & Hl' & _).
  exists s, l, l'. split; [exact Hc|]. split; [exact Ea|]. split; [exact Els|]. split; [congruence|]. rewrite EL. split; [exact Hn|].
  split; [reflexivity|]. split; [reflexivity|]. split; [apply (all_real_map INR 200)|]. split; [exact Hl|]. rewrite Hk. split; [cbn; tauto|].
  split; [exact Hl'|]. intros i u Hi Hu. unfold signal, ramp, ramp_back, at_. cbn [nd_data]. rewrite !nth_firstn_lt, !nth_skipn_at by lia.
  change (nth ?n ?l (RtoC 0)) with (at_ l n). rewrite !at_map_seq by lia. do 2 f_equal.
  assert (E1 : ((i * 100 + u) / 100 = i)%nat) by (symmetry; apply (Nat.div_unique _ 100 i u); lia).
  assert (E2 : ((i * 100 + u) mod 100 = u)%nat) by (symmetry; apply (Nat.mod_unique _ 100 i u); lia).
  rewrite E1, E2. lia.
Qed.
