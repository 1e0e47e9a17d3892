(** Property C107: Scattering1D with averaging is invariant to translations that are short with respect to T. *)
From Coq Require Import String Reals ZArith QArith Qreals List Bool Lia Lra Permutation.
From Coquelicot Require Import Complex.
From Verif Require Import Base BaseProofs NdArray Backend Core1d Utils1d Utils1dProofs Frontend1d Spec1d Core1dProofs
  Frontend1dProofs NdProofs Rows1d FrontRows Factory1d FactoryProofs ComplexOps FilterBank1d FilterBank1dProofs Construct1d
  Shape1d PropFilters1d PropShapes1d Dft Conv1d Value1d Tabulated1d PropNumerics1d Invariance1d Norm1d PropInvariance1d Stability1d
  PropStability1d Energy1d PropEnergy1d Shift1d.
Import ListNotations.
Local Open Scope Z_scope.
Local Open Scope res_scope.

(** The norms of the wavelets a path goes through, each at the resolution at which it is applied (C85). *)
Definition wavelet_gain (s : scat1d (nd C) R) (N ls : Z) (key : list nat) : R :=
  match key with
  | [] => 1
  | n1 :: key' =>
    match nth_error (s_psi1 s) n1 with
    | None => 0
    | Some f1 =>
      match key' with
      | [] => norm1 s N f1 0
      | n2 :: _ => match nth_error (s_psi2 s) n2 with
                   | None => 0
                   | Some f2 => norm1 s N f1 0 * norm1 s N f2 (Z.min (f_j f1) ls)
                   end
      end
    end
  end%R.
Lemma wgain_path support p out s N ls key : constructed support p out s N ->
  adm (s_phi s) (s_psi1 s) (s_psi2 s) (s_max_order s =? 2) (padded_length s N) ls true ->
  valid_key (s_psi1 s) (s_psi2 s) (s_max_order s =? 2) key -> wgain (s_psi1 s) (s_psi2 s) ls key = wavelet_gain s N ls key.
Proof.
  intros Hc Ha Hk. pose proof (adm_ls _ _ _ _ _ _ _ Ha).
  assert (G : forall f k n, stored s f -> level_ok f k n -> 0 <= k -> l1 (idft (lev f k)) = norm1 s N f k).
  { intros f k n Hf Hl Hk0. unfold norm1. eapply stored_l1; eassumption. }
  destruct Hk as [|n1 f1 E1|n1 n2 f1 f2 H2 E1 E2 Hj]; unfold wgain, wavelet_gain; rewrite ?E1, ?E2; [reflexivity|..].
  - destruct (adm_psi1 _ _ _ _ _ _ _ Ha f1 (nth_error_In _ _ E1)) as (G1 & G2 & _).
    eapply G; [right; left; eapply nth_error_In; exact E1|exact G2|lia].
  - destruct (adm_psi1 _ _ _ _ _ _ _ Ha f1 (nth_error_In _ _ E1)) as (G1 & G2 & _).
    destruct (adm_psi2 _ _ _ _ _ _ _ Ha H2 f1 f2 (nth_error_In _ _ E1) (nth_error_In _ _ E2) Hj) as (Q1 & _ & Q3).
    f_equal; eapply G; [right; left; eapply nth_error_In; exact E1|exact G2|lia|right; right; eapply nth_error_In; exact E2|exact Q1|unfold kk; lia].
Qed.

(** [U] is a padded batch, [U'] the same with every signal shifted circularly by [tau] samples. The energy of the change of
    a path is at most that of the signal, times the squared gain of its wavelets, times the square of 2/5 tau/T. The shift
    is a whole number of samples at the resolution at which the path meets the low-pass filter: 2^min(j, ls), [j] being its
    last scale. *)
Theorem C107_translation : forall support p out s N T ls pre (U U' : nd C) gen tau,
  constructed support p out s N -> T_of (p_T p) (p_J p) N = Ok T -> s_log2_stride s = Ok ls -> (IZR (2 ^ ls) <= Q2R T)%R ->
  nd_wf U -> nd_shape U = pre ++ [padded_length s N] -> (0 < prod pre)%nat ->
  nd_wf U' -> nd_dtype U' = Real -> nd_shape U' = nd_shape U ->
  (forall i, (i < prod pre)%nat -> signal (padded_length s N) i U' = rotate tau (signal (padded_length s N) i U)) ->
  scattering1d np U (s_phi s) (psis_of s) ls true = Ok gen ->
  exists gen', scattering1d np U' (s_phi s) (psis_of s) ls true = Ok gen' /\ map p_n gen' = map p_n gen /\
   forall q q', In q gen -> In q' gen' -> p_n q' = p_n q -> (2 ^ Z.min (last (p_j q) 0) ls | tau) ->
     exists L, Z.of_nat (padded_length s N) = Z.of_nat L * 2 ^ ls /\
       nd_shape (p_coef q) = pre ++ [L] /\ nd_shape (p_coef q') = pre ++ [L] /\
       forall i, (i < prod pre)%nat ->
         (rsum L (fun t => Cmod (at_ (signal L i (p_coef q')) t - at_ (signal L i (p_coef q)) t)%C ^ 2) <=
          (2 / 5 * Rabs (IZR tau) / Q2R T * wavelet_gain s N ls (p_n q)) ^ 2 *
          rsum (padded_length s N) (fun t => Cmod (at_ (signal (padded_length s N) i U) t) ^ 2))%R.
Proof.
  intros support p out s N T ls pre U U' gen tau Hc ET Els HT Hw Hsh Hb Hw' Hd' Hsh' Hrot Hg.
  pose proof Hc as (Hsup & H & EN & HN & HJ & Hmo).
  destruct (core_adm _ _ _ _ _ _ _ _ _ Hsup H EN HN HJ Hmo Els Hsh Hb Hg) as (Hd & Ha).
  set (Np := padded_length s N) in *. pose proof (new_order _ _ _ _ H) as Emo.
  assert (Epsis : psis_of s = if s_max_order s =? 2 then [s_psi1 s; s_psi2 s] else [s_psi1 s]).
  { destruct (psis_of_cases s ltac:(lia)) as [[X1 X2]|[X1 X2]]; rewrite X2, X1; reflexivity. }
  rewrite Hsh in Hsh'.
  destruct (of_rows_intro U pre Np Hw Hsh) as (rows & EU & Hr). rewrite Hd in EU.
  destruct (of_rows_intro U' pre Np Hw' Hsh') as (rows' & EU' & Hr'). rewrite Hd' in EU'.
  destruct (scattering1d_rows complex_ops complex_ops_ok _ _ _ _ _ _ _ _ _ Hr Ha) as (g1 & E1 & F1).
  destruct (scattering1d_rows complex_ops complex_ops_ok _ _ _ _ _ _ _ _ _ Hr' Ha) as (g2 & E2 & F2).
  rewrite <- EU, <- Epsis in E1. rewrite <- EU', <- Epsis in E2.
  assert (g1 = gen) by congruence. subst g1. clear E1.
  exists g2. split; [exact E2|]. split.
  { rewrite Epsis in Hg, E2. destruct (s_max_order s =? 2); rewrite (scattering1d_keys np _ _ _ _ _ _ _ Hg), (scattering1d_keys np _ _ _ _ _ _ _ E2); reflexivity. }
  intros q q' Hq Hq' Eq Hdiv. rewrite Forall_forall in F1, F2. destruct (F1 q Hq) as [C1 R1]. destruct (F2 q' Hq') as [C2 R2].
  rewrite Eq in C2, R2.
  change (resolution (s_psi1 s) (s_psi2 s) ls true (p_n q)) with ls in C1, R1, C2, R2. exists (Np / p2 ls)%nat.
  pose proof (adm_ls _ _ _ _ _ _ _ Ha) as Hls. destruct (adm_phi _ _ _ _ _ _ _ Ha eq_refl) as [[m Hm] _].
  split. { rewrite <- p2_Z by exact Hls. rewrite Hm at 1. pose proof (p2_pos ls). rewrite Hm, Nat.div_mul by lia. lia. }
  rewrite C1, C2. split; [reflexivity|]. split; [reflexivity|]. intros i Hi.
  rewrite !signal_of by assumption. specialize (Hrot i Hi). rewrite EU, EU', !signal_of in Hrot by assumption. rewrite EU, signal_of by assumption.
  rewrite (nth_indep (map _ rows') [] (value complex_ops (s_phi s) (s_psi1 s) (s_psi2 s) Np ls true (p_n q) [])) by (rewrite map_length; destruct Hr'; lia).
  rewrite (nth_indep (map _ rows) [] (value complex_ops (s_phi s) (s_psi1 s) (s_psi2 s) Np ls true (p_n q) [])) by (rewrite map_length; destruct Hr; lia).
  rewrite !map_nth, Hrot.
  assert (Hk : valid_key (s_psi1 s) (s_psi2 s) (s_max_order s =? 2) (p_n q)) by (eapply gen_valid; [lia|exact Hg|exact Hq]).
  assert (Hrow : List.length (nth i rows []) = Np).
  { destruct Hr as [Hr1 Hr2]. rewrite Forall_forall in Hr2. apply Hr2. apply nth_In. lia. }
  set (row := nth i rows []) in *.
  rewrite <- (wgain_path _ _ _ _ _ _ _ Hc Ha Hk). set (key := p_n q) in *. set (k := entry (s_psi1 s) (s_psi2 s) ls key).
  assert (Ek : 0 <= k <= ls /\ Z.min (last (p_j q) 0) ls = k).
  { clear - Hg Hq Hk Ha Epsis Hls. rewrite Epsis in Hg. unfold k, key.
    destruct (s_max_order s =? 2) eqn:Eo;
      destruct (scattering1d_scales np U (s_phi s) _ _ ls true gen q Hg Hq)
        as [(K1 & K2)|[(n1 & f1 & K1 & K2 & K3)|(n1 & n2 & f1 & f2 & psi2 & K1 & K2 & K3 & K4 & K5 & K6)]].
    1,4: rewrite K1, K2; cbn [entry last]; lia.
    1,3: rewrite K1, K3; cbn [entry last]; rewrite K2; destruct (adm_psi1 _ _ _ _ _ _ _ Ha f1 (nth_error_In _ _ K2)) as (G1 & _); lia.
    - cbn in K2. injection K2 as <-. rewrite K1, K5; cbn [entry last]; rewrite K4.
      destruct (adm_psi1 _ _ _ _ _ _ _ Ha f1 (nth_error_In _ _ K3)) as (G1 & _); lia.
    - discriminate. }
  destruct Ek as [Hk0 Ek]. rewrite Ek in Hdiv. destruct Hdiv as [d Ed].
  assert (Etau : tau = Z.of_nat (p2 k) * d) by (rewrite p2_Z by lia; lia).
  assert (HTk : (IZR (2 ^ k) <= Q2R T)%R).
  { eapply Rle_trans; [|exact HT]. apply IZR_le. apply Z.pow_le_mono_r; lia. }
  pose proof (value_shift _ _ _ _ _ _ Ha d (2 / 5 * Rabs (IZR tau) / Q2R T)%R row key Hrow Hk) as V. fold k in V. cbv zeta in V.
  rewrite <- Etau in V. unfold nrg in V. rewrite Hrow in V. unfold dist2 in V.
  rewrite (value_length _ _ _ (s_max_order s =? 2)) in V by (rewrite ?rotate_length; assumption).
  change (resolution (s_psi1 s) (s_psi2 s) ls true key) with ls in V.
  apply V. intros Hl m' Hm'. replace tau with (2 ^ k * d) by lia. eapply phi_shift; try eassumption; lia.
Qed.
Print Assumptions C107_translation.

(** At stride 1 the bound holds of every path and of every shift, with gain 1. *)
Theorem C107_unit_gain : forall support p out s N T pre (U U' : nd C) gen gen' tau,
  constructed support p out s N -> T_of (p_T p) (p_J p) N = Ok T -> s_log2_stride s = Ok 0 ->
  2 <= N ->
  nd_wf U -> nd_shape U = pre ++ [padded_length s N] -> (0 < prod pre)%nat ->
  nd_wf U' -> nd_dtype U' = Real -> nd_shape U' = nd_shape U ->
  (forall i, (i < prod pre)%nat -> signal (padded_length s N) i U' = rotate tau (signal (padded_length s N) i U)) ->
  scattering1d np U (s_phi s) (psis_of s) 0 true = Ok gen -> scattering1d np U' (s_phi s) (psis_of s) 0 true = Ok gen' ->
  forall q q' i, In q gen -> In q' gen' -> p_n q' = p_n q -> (i < prod pre)%nat ->
    (rsum (padded_length s N) (fun t => Cmod (at_ (signal (padded_length s N) i (p_coef q')) t - at_ (signal (padded_length s N) i (p_coef q)) t)%C ^ 2) <=
     (2 / 5 * Rabs (IZR tau) / Q2R T) ^ 2 *
     rsum (padded_length s N) (fun t => Cmod (at_ (signal (padded_length s N) i U) t) ^ 2))%R.
Proof.
  intros support p out s N T pre U U' gen gen' tau Hc ET Els Hn Hw Hsh Hb Hw' Hd' Hsh' Hrot Hg Hg' q q' i Hq Hq' Eq Hi.
  pose proof Hc as (Hsup & H & EN & HN & HJ & Hmo).
  assert (HT : (IZR (2 ^ 0) <= Q2R T)%R).
  { change (2 ^ 0) with 1. unfold T_of in ET. inv_bind ET. destruct v as [T' a']. cbn in ET. injection ET as <-.
    pose proof (parse_T_ge1 _ _ _ _ _ HJ E) as H1. apply Qle_Rle in H1. replace (IZR 1) with (Q2R 1) by (unfold Q2R; cbn; lra). exact H1. }
  destruct (C107_translation _ _ _ _ _ _ _ pre U U' gen tau Hc ET Els HT Hw Hsh Hb Hw' Hd' Hsh' Hrot Hg) as (g2 & E2 & _ & F).
  assert (g2 = gen') by congruence. subst g2.
  destruct (core_adm _ _ _ _ _ _ _ _ _ Hsup H EN HN HJ Hmo Els Hsh Hb Hg) as (_ & Ha).
  pose proof (new_order _ _ _ _ H) as Emo.
  assert (Hk : valid_key (s_psi1 s) (s_psi2 s) (s_max_order s =? 2) (p_n q)) by (eapply gen_valid; [lia|exact Hg|exact Hq]).
  assert (Hj : forall f, In f (s_psi1 s) -> 0 <= f_j f) by (intros f Hf; apply (adm_psi1 _ _ _ _ _ _ _ Ha f Hf)).
  destruct (F q q' Hq Hq' Eq) as (L & EL & S1 & S2 & V).
  { assert (X : Z.min (last (p_j q) 0) 0 = 0 \/ Z.min (last (p_j q) 0) 0 < 0) by lia. destruct X as [->|X]; [exists tau; lia|exfalso].
    assert (E0 : psis_of s = if s_max_order s =? 2 then [s_psi1 s; s_psi2 s] else [s_psi1 s]).
    { destruct (psis_of_cases s ltac:(lia)) as [[X1 X2]|[X1 X2]]; rewrite X2, X1; reflexivity. }
    rewrite E0 in Hg. destruct (s_max_order s =? 2) eqn:Eo;
      destruct (scattering1d_scales np U (s_phi s) _ _ 0 true gen q Hg Hq)
        as [(K1 & K2)|[(n1 & f1 & K1 & K2 & K3)|(n1 & n2 & f1 & f2 & psi2 & K1 & K2 & K3 & K4 & K5 & K6)]].
    1,4: rewrite K2 in X; cbn [last] in X; lia.
    1,3: rewrite K3 in X; cbn [last] in X; pose proof (Hj f1 (nth_error_In _ _ K2)); lia.
    - cbn in K2. injection K2 as <-. rewrite K5 in X. cbn [last] in X. pose proof (Hj f1 (nth_error_In _ _ K3)). lia.
    - discriminate. }
  assert (L = padded_length s N) by (change (2 ^ 0) with 1 in EL; lia). subst L.
  eapply Rle_trans; [apply (V i Hi)|]. right. f_equal.
  enough (wavelet_gain s N 0 (p_n q) = 1)%R as -> by (now rewrite Rmult_1_r).
  destruct (C32_l1_normalised _ _ _ _ _ Hc) as (_ & P2 & _).
  assert (Q2 : forall f, In f (s_psi1 s) \/ In f (s_psi2 s) -> norm1 s N f 0 = 1%R) by (intros f Hf; rewrite norm1_0; apply P2; auto).
  clear - Hk Hj Q2. destruct Hk as [|n1 f1 E1|n1 n2 f1 f2 H2 E1 E2 Hjj]; unfold wavelet_gain; rewrite ?E1, ?E2; [reflexivity|..].
  - apply Q2. left. eapply nth_error_In; exact E1.
  - pose proof (Hj f1 (nth_error_In _ _ E1)). rewrite (Z.min_r (f_j f1)) by lia.
    rewrite !Q2; [ring|right; eapply nth_error_In; exact E2|left; eapply nth_error_In; exact E1].
Qed.
Print Assumptions C107_unit_gain.

(** ** Instances *)
(** The ramps 0..255, 1..256 and 2..257, and the same shifted by [tau] samples, through an object with J = 4, Q = 1, N = 100. *)
Definition ramps : list (list C) := map (fun i => map (fun t => RtoC (INR (i + t))) (seq 0 256)) [0; 1; 2]%nat.
Lemma shifted_ramps s st ls l tau :
  constructed (fun _ _ => 30) (mk_params 4 100 (QInt 1) TNone st 2) "list" s 100 -> s_average s = Ok Local -> s_log2_stride s = Ok ls ->
  padded_length s 100 = 256%nat -> scattering np (with_out s "list") two_signals = Ok (OutList l) ->
  let U := of_rows Real [3]%nat 256 ramps in let U' := of_rows Real [3]%nat 256 (map (rotate tau) ramps) in
  nd_wf U /\ nd_wf U' /\ nd_dtype U' = Real /\ nd_shape U = [3; 256]%nat /\ nd_shape U' = nd_shape U /\
  (forall i, (i < 3)%nat -> signal 256 i U' = rotate tau (signal 256 i U)) /\
  exists gen gen', scattering1d np U (s_phi s) (psis_of s) ls true = Ok gen /\ scattering1d np U' (s_phi s) (psis_of s) ls true = Ok gen' /\
    exists q q', In q gen /\ In q' gen' /\ p_n q = [0; 4]%nat /\ p_n q' = [0; 4]%nat /\ p_j q = [0; 2].
Proof.
  intros Hc Ea Els EL Hl U U'. pose proof Hc as (H30 & Hs & EN & HN & HJ & Hmo).
  destruct (run_final _ _ _ _ _ [2]%nat two_signals l H30 Hs EN HN HJ Hmo eq_refl eq_refl ltac:(cbn; lia) Hl) as (_ & pl & pr & m & ls' & a & Rd & _).
  rewrite (rd_avg _ _ _ _ _ _ _ Rd) in Ea. injection Ea as ->. rewrite (rd_stride _ _ _ _ _ _ _ Rd) in Els. injection Els as ->.
  pose proof (rd_adm _ _ _ _ _ _ _ Rd) as Ha. cbn [is_local] in Ha.
  assert (ENp : (pl + Z.to_nat 100 + pr = 256)%nat).
  { unfold padded_length in EL. rewrite (rd_left _ _ _ _ _ _ _ Rd), (rd_right _ _ _ _ _ _ _ Rd) in EL. lia. }
  rewrite ENp in Ha.
  assert (Hr : rows_ok [3]%nat 256 ramps) by (split; [reflexivity|]; repeat constructor).
  assert (Hr' : rows_ok [3]%nat 256 (map (rotate tau) ramps)) by (split; [reflexivity|]; repeat constructor; apply rotate_length).
  split; [now apply of_rows_wf|]. split; [now apply of_rows_wf|]. split; [reflexivity|]. split; [reflexivity|]. split; [reflexivity|].
  split. { intros i Hi. unfold U, U'. rewrite !signal_of by assumption. rewrite (nth_indep (map _ ramps) [] (rotate tau [])) by exact Hi. apply map_nth. }
  destruct (scattering1d_rows complex_ops complex_ops_ok _ _ _ _ _ _ _ _ _ Hr Ha) as (gen & Eg & _).
  destruct (scattering1d_rows complex_ops complex_ops_ok _ _ _ _ _ _ _ _ _ Hr' Ha) as (gen' & Eg' & _).
  pose proof (new_order _ _ _ _ Hs) as Emo. cbn in Emo. rewrite Emo in Eg, Eg'. cbn [Z.eqb Pos.eqb] in Eg, Eg'.
  assert (Eps : psis_of s = [s_psi1 s; s_psi2 s]) by (destruct (psis_of_cases s ltac:(lia)) as [[X1 X2]|[X1 X2]]; [lia|exact X2]).
  rewrite Eps. exists gen, gen'. split; [exact Eg|]. split; [exact Eg'|].
  destruct (new_banks _ _ _ _ Hs 1 1 eq_refl) as (P1 & P2 & J1 & J2). change (p_J _) with 4 in P1, P2.
  pose proof (anden_unique _ _ _ _ _ _ (anden_list_ok 4 1 ltac:(lia) ltac:(lia)) (anden_Q1 4 ltac:(lia))) as E.
  change (seq 0 (S (Z.to_nat 4))) with [0; 1; 2; 3; 4]%nat in E.
  assert (G : forall fs : list (Core1d.filter (nd C) R), map params_of fs = anden_list 4 1 sigma0 r_psi ->
     Forall (fun f => f_j f = scale (f_xi f) (f_sigma f)) fs -> map f_j fs = [0; 0; 0; 1; 2]).
  { intros fs Hp Hj. rewrite E in Hp. transitivity (map (fun a => scale (fst a) (snd a)) (map params_of fs)).
    - clear - Hj. induction Hj as [|f fs Ef _ IH]; [reflexivity|]. cbn [map params_of fst snd]. now rewrite Ef, IH.
    - rewrite Hp, map_map. cbn [map fst snd]. now rewrite !scale_Q1. }
  pose proof (G _ P1 J1) as F1. pose proof (G _ P2 J2) as F2.
  assert (I1 : In [0; 4]%nat (map p_n gen)) by (rewrite (scattering1d_keys np _ _ _ _ _ _ _ Eg); cbn [nth_error option_map]; rewrite F1, F2; cbn; tauto).
  assert (I2 : In [0; 4]%nat (map p_n gen')) by (rewrite (scattering1d_keys np _ _ _ _ _ _ _ Eg'); cbn [nth_error option_map]; rewrite F1, F2; cbn; tauto).
  apply in_map_iff in I1. destruct I1 as (q & Eq & Hq). apply in_map_iff in I2. destruct I2 as (q' & Eq' & Hq').
  exists q, q'. do 4 (split; [assumption|]).
  destruct (scattering1d_scales np U (s_phi s) _ _ ls true gen q Eg Hq)
    as [(K1 & K2)|[(n1 & f1 & K1 & K2 & K3)|(n1 & n2 & f1 & f2 & psi2 & K1 & K2 & K3 & K4 & K5 & K6)]];
    rewrite Eq in K1; try discriminate. injection K1 as <- <-. cbn in K2. injection K2 as <-. rewrite K5.
  assert (N1 : nth_error (map f_j (s_psi1 s)) 0 = Some 0) by (rewrite F1; reflexivity).
  assert (N2 : nth_error (map f_j (s_psi2 s)) 4 = Some 2) by (rewrite F2; reflexivity).
  rewrite nth_error_map, K3 in N1. rewrite nth_error_map, K4 in N2. cbn in N1, N2. injection N1 as ->. injection N2 as ->. reflexivity.
Qed.
(** T = 16, stride 16: the ramps shifted by 4 samples, on a second-order path of last scale 2. *)
Example C107_translation_instance : exists s U U' gen gen' q q',
  constructed (fun _ _ => 30) (mk_params 4 100 (QInt 1) TNone SNone 2) "list" s 100 /\ T_of TNone 4 100 = Ok (Qpower 2 4) /\
  s_log2_stride s = Ok 4 /\ (IZR (2 ^ 4) <= Q2R (Qpower 2 4))%R /\ padded_length s 100 = 256%nat /\
  nd_wf U /\ nd_wf U' /\ nd_dtype U' = Real /\ nd_shape U = [3; 256]%nat /\ nd_shape U' = nd_shape U /\
  (forall i, (i < 3)%nat -> signal 256 i U' = rotate 4 (signal 256 i U)) /\
  scattering1d np U (s_phi s) (psis_of s) 4 true = Ok gen /\ scattering1d np U' (s_phi s) (psis_of s) 4 true = Ok gen' /\
  In q gen /\ In q' gen' /\ p_n q = [0; 4]%nat /\ p_n q' = [0; 4]%nat /\ (2 ^ Z.min (last (p_j q) 0) 4 | 4) /\
  forall i, (i < 3)%nat ->
    (rsum 16 (fun t => Cmod (at_ (signal 16 i (p_coef q')) t - at_ (signal 16 i (p_coef q)) t)%C ^ 2) <=
     (1 / 10 * wavelet_gain s 100 4 [0; 4]%nat) ^ 2 * rsum 256 (fun t => Cmod (at_ (signal 256 i U) t) ^ 2))%R.
Proof.
  destruct (concrete_objects TNone Local) as (s & Hc & Ea & Els & EL & _ & _ & Hn & Run); [cbn; tauto|].
  destruct (Run 2%nat two_signals eq_refl eq_refl eq_refl) as (l & Hl & _).
  destruct (shifted_ramps s SNone 4 l 4 Hc Ea Els EL Hl) as (W & W' & D & S1 & S2 & R & gen & gen' & G & G' & q & q' & Hq & Hq' & Eq & Eq' & Ej).
  assert (HT : (IZR (2 ^ 4) <= Q2R (Qpower 2 4))%R) by (unfold Q2R; cbn; lra).
  assert (Hdiv : (2 ^ Z.min (last (p_j q) 0) 4 | 4)) by (rewrite Ej; exists 1; reflexivity).
  exists s, (of_rows Real [3]%nat 256 ramps), (of_rows Real [3]%nat 256 (map (rotate 4) ramps)), gen, gen', q, q'.
  split; [exact Hc|]. split; [reflexivity|]. do 16 (split; [assumption|]).
  destruct (C107_translation _ _ _ _ _ (Qpower 2 4) 4 [3]%nat (of_rows Real [3]%nat 256 ramps) (of_rows Real [3]%nat 256 (map (rotate 4) ramps)) gen 4 Hc
    eq_refl Els HT W ltac:(rewrite EL; exact S1) ltac:(cbn; lia) W' D S2 ltac:(rewrite EL; exact R) G) as (g & E & _ & F).
  assert (g = gen') by congruence. subst g. destruct (F q q' Hq Hq' ltac:(congruence) Hdiv) as (L & Lz & _ & _ & V).
  rewrite EL in Lz. assert (L = 16%nat) by (change (2 ^ 4) with 16 in Lz; lia). subst L. intros i Hi. specialize (V i ltac:(cbn; lia)).
  rewrite EL, Eq in V. eapply Rle_trans; [exact V|]. right. f_equal. f_equal. f_equal. rewrite Rabs_pos_eq by lra. unfold Q2R. cbn. lra.
Qed.
(** The same at stride 1, shifted by 3 samples. *)
Example C107_unit_gain_instance : exists s U U' gen gen' q q',
  constructed (fun _ _ => 30) (mk_params 4 100 (QInt 1) TNone (SInt 1) 2) "list" s 100 /\ T_of TNone 4 100 = Ok (Qpower 2 4) /\
  s_log2_stride s = Ok 0 /\ padded_length s 100 = 256%nat /\ (forall f, In f (s_psi1 s) \/ In f (s_psi2 s) -> normalised 256 f) /\
  nd_wf U /\ nd_wf U' /\ nd_dtype U' = Real /\ nd_shape U = [3; 256]%nat /\ nd_shape U' = nd_shape U /\
  (forall i, (i < 3)%nat -> signal 256 i U' = rotate 3 (signal 256 i U)) /\
  scattering1d np U (s_phi s) (psis_of s) 0 true = Ok gen /\ scattering1d np U' (s_phi s) (psis_of s) 0 true = Ok gen' /\
  In q gen /\ In q' gen' /\ p_n q = [0; 4]%nat /\ p_n q' = [0; 4]%nat /\
  forall i, (i < 3)%nat ->
    (rsum 256 (fun t => Cmod (at_ (signal 256 i (p_coef q')) t - at_ (signal 256 i (p_coef q)) t)%C ^ 2) <=
     (3 / 40) ^ 2 * rsum 256 (fun t => Cmod (at_ (signal 256 i U) t) ^ 2))%R.
Proof.
  destruct stride_one_object as (s & Hc & Ea & Els & EL & _ & _ & Hn & Run).
  destruct (Run 2%nat two_signals eq_refl eq_refl eq_refl) as (l & Hl & _).
  destruct (shifted_ramps s (SInt 1) 0 l 3 Hc Ea Els EL Hl) as (W & W' & D & S1 & S2 & R & gen & gen' & G & G' & q & q' & Hq & Hq' & Eq & Eq' & Ej).
  exists s, (of_rows Real [3]%nat 256 ramps), (of_rows Real [3]%nat 256 (map (rotate 3) ramps)), gen, gen', q, q'.
  split; [exact Hc|]. split; [reflexivity|]. do 15 (split; [assumption|]). intros i Hi.
  pose proof (C107_unit_gain _ _ _ _ _ (Qpower 2 4) [3]%nat (of_rows Real [3]%nat 256 ramps) (of_rows Real [3]%nat 256 (map (rotate 3) ramps)) gen gen' 3 Hc
    eq_refl Els ltac:(lia) W ltac:(rewrite EL; exact S1) ltac:(cbn; lia) W' D S2 ltac:(rewrite EL; exact R) G G' q q' i Hq Hq'
    ltac:(congruence) ltac:(cbn; lia)) as V.
  rewrite EL in V. eapply Rle_trans; [exact V|]. right. f_equal. f_equal. rewrite Rabs_pos_eq by lra. unfold Q2R. cbn. lra.
Qed.
