(** The coefficients of constructed Scattering1D objects as explicit expressions of each input signal. *)
From Coq Require Import String Reals ZArith QArith List Bool Lia Lra Permutation.
From Coquelicot Require Import Complex.
From Verif Require Import Base BaseProofs NdArray Backend Core1d Utils1d Utils1dProofs Frontend1d Spec1d Core1dProofs
  Frontend1dProofs NdProofs Rows1d FrontRows Factory1d FactoryProofs ComplexOps FilterBank1d FilterBank1dProofs Construct1d
  Shape1d PropFilters1d PropShapes1d Dft Conv1d.
Import ListNotations.
Local Open Scope Z_scope.
Local Open Scope res_scope.

(** The keys of the paths of a run: zeroth, first and second order. *)
Inductive valid_key {W P} (psi1s psi2s : list (Core1d.filter W P)) (two : bool) : list nat -> Prop :=
| vk0 : valid_key psi1s psi2s two []
| vk1 n1 f1 : nth_error psi1s n1 = Some f1 -> valid_key psi1s psi2s two [n1]
| vk2 n1 n2 f1 f2 : two = true -> nth_error psi1s n1 = Some f1 -> nth_error psi2s n2 = Some f2 -> f_j f1 < f_j f2 ->
    valid_key psi1s psi2s two [n1; n2].

Section Values.
Context {P : Type}.
Notation filter := (Core1d.filter (nd C) P).
Variables (phi : filter) (psi1s psi2s : list filter) (two : bool) (N : nat) (ls : Z) (al : bool).
Hypothesis (Ha : adm phi psi1s psi2s two N ls al).
Variable (row : list C).
Hypothesis (Hrow : List.length row = N).
Notation val := (value complex_ops phi psi1s psi2s N ls al).

Lemma env1_spec n1 f1 : nth_error psi1s n1 = Some f1 ->
  env1 complex_ops N ls al f1 row = sampled_envelope row (lev f1 0) (p2 (kk ls al f1)) /\
  List.length (env1 complex_ops N ls al f1 row) = (N / p2 (kk ls al f1))%nat /\
  0 <= kk ls al f1 /\ Nat.divide (p2 (kk ls al f1)) N /\ (al = true -> kk ls al f1 <= ls) /\ (0 < N / p2 (kk ls al f1))%nat.
Proof.
  intros H1. destruct (adm_psi1 _ _ _ _ _ _ _ Ha f1 (nth_error_In _ _ H1)) as (G1 & G2 & G3 & G4).
  destruct (kk_ok _ _ _ _ _ _ _ Ha f1 G1 G3) as (K1 & K2 & K3 & K4).
  split; [|split; [|tauto]].
  - unfold env1. apply r_env_spec; assumption.
  - unfold env1. apply r_env_length. exact complex_ops_ok.
Qed.
Lemma env2_spec n1 n2 f1 f2 : two = true -> nth_error psi1s n1 = Some f1 -> nth_error psi2s n2 = Some f2 -> f_j f1 < f_j f2 ->
  env2 complex_ops N ls al f1 f2 row =
    sampled_envelope (sampled_envelope row (lev f1 0) (p2 (kk ls al f1))) (lev f2 (kk ls al f1)) (p2 (kk ls al f2 - kk ls al f1)) /\
  List.length (env2 complex_ops N ls al f1 f2 row) = (N / p2 (kk ls al f2))%nat /\
  0 <= kk ls al f1 <= kk ls al f2 /\ Nat.divide (p2 (kk ls al f2)) N /\ (al = true -> kk ls al f2 <= ls) /\ (0 < N / p2 (kk ls al f2))%nat.
Proof.
  intros H2 E1 E2 Hj. destruct (env1_spec n1 f1 E1) as (S1 & L1 & K1 & D1 & B1 & P1).
  destruct (adm_psi1 _ _ _ _ _ _ _ Ha f1 (nth_error_In _ _ E1)) as (G1 & _ & _ & _).
  destruct (adm_psi2 _ _ _ _ _ _ _ Ha H2 f1 f2 (nth_error_In _ _ E1) (nth_error_In _ _ E2) Hj) as (Hl & Hd & Hp).
  destruct (kk_ok _ _ _ _ _ _ _ Ha f2 ltac:(lia) Hd) as (K2 & D2 & B2 & P2).
  assert (Hmono : kk ls al f1 <= kk ls al f2) by (unfold kk; destruct al; lia).
  destruct (p2_divide (kk ls al f1) (kk ls al f2) N ltac:(lia) D2) as (_ & D12 & Q12).
  split; [|split; [|tauto]].
  - unfold env2. rewrite <- S1. apply r_env_spec; assumption.
  - unfold env2. rewrite r_env_length by exact complex_ops_ok. exact Q12.
Qed.

Lemma value_local key : al = true -> valid_key psi1s psi2s two key ->
  match key with
  | [] => val key row = sampled_lowpass row (lev phi 0) (p2 ls)
  | [n1] => forall f1, nth_error psi1s n1 = Some f1 ->
      let k1 := Z.min (f_j f1) ls in
      val key row = sampled_lowpass (sampled_envelope row (lev f1 0) (p2 k1)) (lev phi k1) (p2 (ls - k1))
  | [n1; n2] => forall f1 f2, nth_error psi1s n1 = Some f1 -> nth_error psi2s n2 = Some f2 ->
      let k1 := Z.min (f_j f1) ls in let k2 := Z.min (f_j f2) ls in
      val key row = sampled_lowpass (sampled_envelope (sampled_envelope row (lev f1 0) (p2 k1)) (lev f2 k1) (p2 (k2 - k1)))
                      (lev phi k2) (p2 (ls - k2))
  | _ => False
  end.
Proof.
  intros Hal Hk. assert (Kk : forall f : filter, kk ls al f = Z.min (f_j f) ls) by (intros; unfold kk; now rewrite Hal).
  destruct (adm_phi _ _ _ _ _ _ _ Ha Hal) as [Dl Hphi]. pose proof (adm_ls _ _ _ _ _ _ _ Ha) as Hls.
  destruct Hk as [|n1 f1 E1|n1 n2 f1 f2 H2 E1 E2 Hj].
  - unfold value, out0. rewrite Hal. apply r_low_spec; assumption.
  - intros f1' E1'. rewrite E1 in E1'. injection E1' as <-. cbv zeta. unfold value. rewrite E1. unfold out1. rewrite Hal.
    destruct (env1_spec n1 f1 E1) as (S1 & L1 & K1 & D1 & B1 & P1). rewrite <- !Kk, <- S1.
    rewrite Hal in *. specialize (B1 eq_refl).
    destruct (adm_psi1 _ _ _ _ _ _ _ Ha f1 (nth_error_In _ _ E1)) as (G1 & G2 & G3 & G4).
    destruct (p2_divide _ _ _ (conj K1 B1) Dl) as (_ & D12 & Q12).
    apply r_low_spec; [exact L1| |exact D12]. apply G4. reflexivity.
  - intros f1' f2' E1' E2'. rewrite E1 in E1'. injection E1' as <-. rewrite E2 in E2'. injection E2' as <-. cbv zeta.
    unfold value. rewrite E1, E2. unfold out2. rewrite Hal.
    destruct (env2_spec n1 n2 f1 f2 H2 E1 E2 Hj) as (S2 & L2 & K2 & D2 & B2 & P2). rewrite <- !Kk, <- S2.
    rewrite Hal in *. specialize (B2 eq_refl).
    destruct (adm_psi2 _ _ _ _ _ _ _ Ha H2 f1 f2 (nth_error_In _ _ E1) (nth_error_In _ _ E2) Hj) as (Hl & Hd & Hp).
    destruct (p2_divide (kk ls true f2) ls N ltac:(lia) Dl) as (_ & D12 & Q12).
    apply r_low_spec; [exact L2| |exact D12]. apply Hp. reflexivity.
Qed.

Lemma value_plain key : al = false -> valid_key psi1s psi2s two key ->
  match key with
  | [] => val key row = row
  | [n1] => forall f1, nth_error psi1s n1 = Some f1 ->
      val key row = sampled_envelope row (lev f1 0) (p2 (f_j f1))
  | [n1; n2] => forall f1 f2, nth_error psi1s n1 = Some f1 -> nth_error psi2s n2 = Some f2 ->
      val key row = sampled_envelope (sampled_envelope row (lev f1 0) (p2 (f_j f1))) (lev f2 (f_j f1)) (p2 (f_j f2 - f_j f1))
  | _ => False
  end.
Proof.
  intros Hal Hk. assert (Kk : forall f : filter, kk ls al f = f_j f) by (intros; unfold kk; now rewrite Hal).
  destruct Hk as [|n1 f1 E1|n1 n2 f1 f2 H2 E1 E2 Hj].
  - unfold value, out0. now rewrite Hal.
  - intros f1' E1'. rewrite E1 in E1'. injection E1' as <-. unfold value. rewrite E1. unfold out1. rewrite Hal.
    destruct (env1_spec n1 f1 E1) as (S1 & _). rewrite Kk, Hal in S1. exact S1.
  - intros f1' f2' E1' E2'. rewrite E1 in E1'. injection E1' as <-. rewrite E2 in E2'. injection E2' as <-.
    unfold value. rewrite E1, E2. unfold out2. rewrite Hal.
    destruct (env2_spec n1 n2 f1 f2 H2 E1 E2 Hj) as (S2 & _). rewrite !Kk, Hal in S2. exact S2.
Qed.
End Values.

Lemma gen_valid {X W P} (be : backend X W) (s : scat1d W P) U ls al gen q : 1 <= s_max_order s <= 2 ->
  scattering1d be U (s_phi s) (psis_of s) ls al = Ok gen -> In q gen ->
  valid_key (s_psi1 s) (s_psi2 s) (s_max_order s =? 2) (p_n q).
Proof.
  intros Hm Hg Hq. destruct (psis_of_cases s Hm) as [[E1 E2]|[E1 E2]]; rewrite E2 in Hg;
  destruct (scattering1d_scales be U (s_phi s) _ _ ls al gen q Hg Hq)
    as [(K1 & K2)|[(n1 & f1 & K1 & K2 & K3)|(n1 & n2 & f1 & f2 & psi2 & K1 & K2 & K3 & K4 & K5 & K6)]]; rewrite K1;
  try (now constructor); try (econstructor; eassumption).
  - discriminate.
  - cbn in K2. injection K2 as <-. econstructor; try eassumption. now rewrite E1.
Qed.
Lemma paths_valid {X W P} (be : backend X W) (s : scat1d W P) x S q : 1 <= s_max_order s <= 2 ->
  paths be s x = Ok S -> In q S -> valid_key (s_psi1 s) (s_psi2 s) (s_max_order s =? 2) (p_n q).
Proof.
  intros Hm HS Hq. pose proof (paths_inv be s x S HS) as (b & n & x' & U0 & ls & a & gen & _ & _ & _ & _ & _ & Hg & EF).
  apply mapM_ok in EF. destruct (Forall2_In_r _ _ _ _ EF Hq) as (q0 & Hq0 & Ef).
  assert (En : p_n q = p_n q0).
  { unfold finish_path in Ef. inv_bind Ef. inv_bind Ef. inv_bind Ef. injection Ef as <-. reflexivity. }
  rewrite En. eapply gen_valid; eassumption.
Qed.

(** A run of a constructed object: every coefficient, signal by signal. *)
Theorem run_final support p out s N batch x l :
  (forall n t, 0 <= support n t) -> Scattering1D support p out = Ok s ->
  N_input_of (p_shape p) = Ok N -> 1 <= N -> 0 <= p_J p -> 1 <= p_max_order p <= 2 ->
  nd_wf x -> nd_shape x = batch ++ [Z.to_nat N] -> (0 < prod batch)%nat ->
  scattering np (with_out s "list") x = Ok (OutList l) ->
  nd_dtype x = Real /\
  exists pl pr m ls a, ready s (Z.to_nat N) pl pr m ls a /\
    Forall (fun q => valid_key (s_psi1 s) (s_psi2 s) (s_max_order s =? 2) (p_n q) /\
      nd_shape (p_coef q) = batch ++ [final_len s (Z.to_nat N) pl ls a (p_n q)] /\
      forall i, (i < prod batch)%nat ->
        signal (final_len s (Z.to_nat N) pl ls a (p_n q)) i (p_coef q) =
        final complex_ops s (Z.to_nat N) pl pr ls a (p_n q) (signal (Z.to_nat N) i x)) l.
Proof.
  intros Hsup H EN HN HJ Hmo Hw Hsh Hb Hrun.
  apply scattering_list_inv in Hrun. destruct Hrun as (S & HS & ->). rewrite paths_with_out in HS.
  assert (Emo : s_max_order s = p_max_order p).
  { apply new_inv in H. destruct H as (b & Qs & T & l & phi & psi1s & psi2s & H). destruct H as (_ & _ & _ & _ & _ & _ & ->). reflexivity. }
  destruct (run_ready _ _ _ _ _ _ _ _ Hsup H EN HN HJ Hmo Hw Hsh Hb HS) as (Hd & pl & pr & m & ls & a & Rd & _).
  split; [exact Hd|]. exists pl, pr, m, ls, a. split; [exact Rd|].
  destruct (of_rows_intro x batch _ Hw Hsh) as (rows & Ex & Hr). rewrite Hd in Ex.
  destruct (paths_rows complex_ops complex_ops_ok s _ _ _ _ _ _ Rd batch rows Hr) as (S1 & ES & F).
  rewrite <- Ex, HS in ES. injection ES as <-.
  eapply Permutation_Forall; [apply Permutation_sym, map_sort_paths|].
  rewrite Forall_forall in F |- *. intros q Hq. destruct (F q Hq) as [Ec Rc].
  split; [eapply (paths_valid np s x S q); [lia|exact HS|exact Hq]|]. rewrite Ec. split; [reflexivity|].
  intros i Hi. rewrite signal_of by exact Rc. rewrite Ex, signal_of by exact Hr.
  destruct Hr as [Hr1 Hr2].
  rewrite (nth_indep _ [] (final complex_ops s (Z.to_nat N) pl pr ls a (p_n q) [])) by (rewrite map_length; lia).
  apply map_nth.
Qed.
