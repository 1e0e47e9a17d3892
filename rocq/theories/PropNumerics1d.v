(** Properties C24 to C28: what the coefficients of Scattering1D are, as circular convolutions in time. *)
From Coq Require Import String Reals ZArith QArith List Bool Lia Lra Permutation.
From Coquelicot Require Import Complex.
From Verif Require Import Base BaseProofs NdArray Backend Core1d Utils1d Utils1dProofs Frontend1d Spec1d Core1dProofs
  Frontend1dProofs NdProofs Rows1d FrontRows Factory1d FactoryProofs ComplexOps FilterBank1d FilterBank1dProofs Construct1d
  Shape1d PropFilters1d PropShapes1d Dft Conv1d Value1d Tabulated1d.
Import ListNotations.
Local Open Scope Z_scope.
Local Open Scope res_scope.

(** ** C24 *)
Theorem C24_subsample_is_decimation : forall (x : nd C) pre n k,
  nd_wf x -> nd_dtype x = Complex -> nd_shape x = pre ++ [n] -> (0 < prod pre)%nat -> (0 < n)%nat -> 1 <= k ->
  ((k | Z.of_nat n) ->
     exists y, np_subsample complex_ops x (PInt k) = Ok y /\ nd_shape y = pre ++ [(n / Z.to_nat k)%nat] /\
     forall i u, (i < prod pre)%nat -> (u < n / Z.to_nat k)%nat ->
       at_ (idft (signal (n / Z.to_nat k) i y)) u = at_ (idft (signal n i x)) (Z.to_nat k * u)) /\
  (~ (k | Z.of_nat n) -> exists e, np_subsample complex_ops x (PInt k) = Err e).
Proof.
  intros x pre n k Hw Hd Hs Hpre Hn Hk. split.
  - intros [m Hm]. assert (Hdiv : Nat.divide (Z.to_nat k) n) by (exists (Z.to_nat m); nia).
    destruct (of_rows_intro x pre n Hw Hs) as (rows & Ex & Hr). rewrite Hd in Ex.
    exists (of_rows Complex pre (n / Z.to_nat k) (map (periodize_row complex_ops (Z.to_nat k) (n / Z.to_nat k)) rows)).
    split; [|split; [reflexivity|]].
    + rewrite Ex. rewrite <- (Z2Nat.id k) at 1 by lia. apply np_subsample_of; [exact Hr|lia|exact Hdiv].
    + intros i u Hi Hu.
      assert (Hr' : rows_ok pre (n / Z.to_nat k) (map (periodize_row complex_ops (Z.to_nat k) (n / Z.to_nat k)) rows)).
      { eapply rows_ok_map; [|exact Hr]. intros; apply periodize_row_length. }
      rewrite signal_of by exact Hr'. rewrite Ex, signal_of by exact Hr. destruct Hr as [Hr1 Hr2].
      rewrite (nth_indep _ [] (periodize_row complex_ops (Z.to_nat k) (n / Z.to_nat k) [])) by (rewrite map_length; lia).
      rewrite map_nth. rewrite Forall_forall in Hr2. destruct Hdiv as [m' Hm'].
      assert (Em : (n / Z.to_nat k = m')%nat) by (rewrite Hm'; apply Nat.div_mul; lia). rewrite Em in *.
      apply subsample_is_decimation; try lia. rewrite (Hr2 (nth i rows [])) by (apply nth_In; lia). lia.
  - intros Hnd. unfold np_subsample, complex_check, is_complex. rewrite Hd. cbn [negb raise_if bind].
    rewrite Hs, split_last_snoc. cbn [bind].
    destruct (k =? 0); [eauto|]. destruct (k <? 0); [eauto|].
    destruct (Nat.eqb_spec (prod (pre ++ [Z.to_nat k; (n / Z.to_nat k)%nat])) (prod (pre ++ [n]))) as [E|]; [|eauto].
    exfalso. apply Hnd. rewrite !prod_app in E. exists (Z.of_nat (n / Z.to_nat k)).
    change (prod [Z.to_nat k; (n / Z.to_nat k)%nat]) with (Z.to_nat k * (n / Z.to_nat k * 1))%nat in E.
    change (prod [n]) with (n * 1)%nat in E. nia.
Qed.
Print Assumptions C24_subsample_is_decimation.
(** Two rows of length 4 subsampled by 2; 3 does not divide 4. *)
Example C24_instance : exists x : nd C, nd_wf x /\ nd_shape x = [2; 4]%nat /\ nd_dtype x = Complex /\
  (exists y, np_subsample complex_ops x (PInt 2) = Ok y /\ nd_shape y = [2; 2]%nat) /\
  np_subsample complex_ops x (PInt 3) = Err ValueError.
Proof.
  exists (mk_nd Complex [2; 4]%nat (repeat (RtoC 1) 8)). repeat split.
  destruct (proj1 (C24_subsample_is_decimation (mk_nd Complex [2; 4]%nat (repeat (RtoC 1) 8)) [2]%nat 4 2 eq_refl eq_refl eq_refl
     ltac:(cbn; lia) ltac:(lia) ltac:(lia)) (ex_intro _ 2 eq_refl)) as (y & Ey & Sy & _). exists y. split; [exact Ey|exact Sy].
Qed.

(** ** Vocabulary for constructed objects *)
Definition constructed (support : Z -> Q -> Z) (p : params) (out : string) (s : scat1d (nd C) R) (N : Z) : Prop :=
  (forall n t, 0 <= support n t) /\ Scattering1D support p out = Ok s /\ N_input_of (p_shape p) = Ok N /\
  1 <= N /\ 0 <= p_J p /\ 1 <= p_max_order p <= 2.
(** The reflection-padded signal. *)
Definition padded (s : scat1d (nd C) R) (row : list C) : list C :=
  pad_reflect_row complex_ops (Z.to_nat (s_pad_left s)) (Z.to_nat (s_pad_right s)) (List.length row) row.
(** Index of the first kept sample at stride 2^ls: the first multiple of the stride in the original support. *)
Definition first_kept (s : scat1d (nd C) R) (ls : Z) : Z := cdiv (s_pad_left s) (2 ^ ls).

Lemma signal_length n i (x : nd C) batch : nd_wf x -> nd_shape x = batch ++ [n] -> (i < prod batch)%nat -> List.length (signal n i x) = n.
Proof.
  intros Hw Hs Hi. unfold signal. rewrite firstn_length, skipn_length. unfold nd_wf in Hw. rewrite Hw, Hs, prod_snoc. nia.
Qed.

Lemma value_length {P} (phi : Core1d.filter (nd C) P) psi1s psi2s two N ls al row key :
  adm phi psi1s psi2s two N ls al -> List.length row = N -> valid_key psi1s psi2s two key ->
  List.length (value complex_ops phi psi1s psi2s N ls al key row) = (N / p2 (resolution psi1s psi2s ls al key))%nat.
Proof.
  intros Ha Hrow Hk. pose proof (adm_ls _ _ _ _ _ _ _ Ha) as Hls.
  destruct Hk as [|n1 f1 E1|n1 n2 f1 f2 H2 E1 E2 Hj]; unfold value, resolution.
  - unfold out0. destruct al; [apply r_low_length; exact complex_ops_ok|]. rewrite p2_0, Nat.div_1_r. exact Hrow.
  - rewrite E1. unfold out1. destruct (env1_spec phi psi1s psi2s two N ls al Ha row Hrow n1 f1 E1) as (_ & L1 & K1 & D1 & B1 & _).
    destruct al eqn:Eal.
    + rewrite r_low_length by exact complex_ops_ok. specialize (B1 eq_refl).
      destruct (adm_phi _ _ _ _ _ _ _ Ha eq_refl) as [Dl _].
      apply (p2_divide (kk ls true f1) ls N (conj K1 B1) Dl).
    + rewrite L1. reflexivity.
  - rewrite E1, E2. unfold out2. destruct (env2_spec phi psi1s psi2s two N ls al Ha row Hrow n1 n2 f1 f2 H2 E1 E2 Hj) as (_ & L2 & K2 & D2 & B2 & _).
    destruct al eqn:Eal.
    + rewrite r_low_length by exact complex_ops_ok. specialize (B2 eq_refl).
      destruct (adm_phi _ _ _ _ _ _ _ Ha eq_refl) as [Dl _].
      apply (p2_divide (kk ls true f2) ls N ltac:(lia) Dl).
    + rewrite L2. reflexivity.
Qed.

(** Locally averaged coefficients of a constructed object. *)
Lemma local_coefficient support p out s N ls batch x l q i L t :
  constructed support p out s N -> s_average s = Ok Local -> s_log2_stride s = Ok ls ->
  nd_wf x -> nd_shape x = batch ++ [Z.to_nat N] ->
  scattering np (with_out s "list") x = Ok (OutList l) -> In q l -> (i < prod batch)%nat ->
  nd_shape (p_coef q) = batch ++ [L] -> (t < L)%nat ->
  let Np := padded_length s N in
  adm (s_phi s) (s_psi1 s) (s_psi2 s) (s_max_order s =? 2) Np ls true /\
  valid_key (s_psi1 s) (s_psi2 s) (s_max_order s =? 2) (p_n q) /\
  List.length (padded s (signal (Z.to_nat N) i x)) = Np /\
  0 <= first_kept s ls + Z.of_nat t < Z.of_nat (Np / p2 ls) /\
  at_ (signal L i (p_coef q)) t =
  at_ (value complex_ops (s_phi s) (s_psi1 s) (s_psi2 s) Np ls true (p_n q) (padded s (signal (Z.to_nat N) i x)))
      (Z.to_nat (first_kept s ls + Z.of_nat t)).
Proof.
  intros (Hsup & H & EN & HN & HJ & Hmo) Ea Els Hw Hsh Hrun Hq Hi HL Ht. cbv zeta.
  assert (Hb : (0 < prod batch)%nat) by lia.
  destruct (run_final _ _ _ _ _ _ _ _ Hsup H EN HN HJ Hmo Hw Hsh Hb Hrun) as (Hd & pl & pr & m & ls' & a & Rd & F).
  rewrite (rd_avg _ _ _ _ _ _ _ Rd) in Ea. injection Ea as ->. rewrite (rd_stride _ _ _ _ _ _ _ Rd) in Els. injection Els as ->.
  rewrite Forall_forall in F. destruct (F q Hq) as (Hk & Sh & Val). rewrite Sh in HL. apply app_inj_tail in HL. destruct HL as [_ HL].
  assert (Epl : Z.to_nat (s_pad_left s) = pl) by (rewrite (rd_left _ _ _ _ _ _ _ Rd); lia).
  assert (Epr : Z.to_nat (s_pad_right s) = pr) by (rewrite (rd_right _ _ _ _ _ _ _ Rd); lia).
  assert (ENp : padded_length s N = (pl + Z.to_nat N + pr)%nat).
  { unfold padded_length. rewrite (rd_left _ _ _ _ _ _ _ Rd), (rd_right _ _ _ _ _ _ _ Rd). lia. }
  assert (Ls : List.length (signal (Z.to_nat N) i x) = Z.to_nat N) by (eapply signal_length; eassumption).
  assert (Epad : padded s (signal (Z.to_nat N) i x) = pad_reflect_row complex_ops pl pr (Z.to_nat N) (signal (Z.to_nat N) i x)).
  { unfold padded. now rewrite Ls, Epl, Epr. }
  pose proof (rd_adm _ _ _ _ _ _ _ Rd) as Ha. cbn [is_local] in Ha. rewrite ENp.
  assert (Hls : 0 <= ls) by (exact (adm_ls _ _ _ _ _ _ _ Ha)).
  pose proof (rd_keys _ _ _ _ _ _ _ Rd) as Hkeys. cbn [is_local] in Hkeys.
  destruct (adm_phi _ _ _ _ _ _ _ Ha eq_refl) as [Dl _].
  destruct (borders s (Z.to_nat N) pl pr m ls Local Rd ls ltac:(lia) Dl) as (_ & _ & Hlo & Hhi).
  assert (Efl : final_len s (Z.to_nat N) pl ls Local (p_n q) = (hi (Z.to_nat N) pl ls - lo pl ls)%nat) by reflexivity.
  assert (Efk : first_kept s ls = Z.of_nat (lo pl ls)).
  { unfold first_kept, lo. rewrite (rd_left _ _ _ _ _ _ _ Rd). rewrite Z2Nat.id; [reflexivity|].
    unfold cdiv. pose proof (Z.pow_pos_nonneg 2 ls ltac:(lia) Hls). pose proof (Z.div_le_upper_bound (- Z.of_nat pl) (2 ^ ls) 0). lia. }
  split; [exact Ha|]. split; [exact Hk|]. split; [rewrite Epad; apply pad_row_length|]. rewrite Efk. split; [lia|].
  rewrite <- HL at 1. rewrite Val by exact Hi. rewrite Epad. unfold final. cbn [is_local]. unfold at_ at 1.
  rewrite nth_slice by (rewrite <- HL, Efl in Ht; exact Ht). unfold at_. f_equal.
  change (res_of s ls Local (p_n q)) with ls. lia.
Qed.

(** ** The transform itself, for any filters *)
(** [phi], [psi1s], [psi2s] are arbitrary filterbanks tabulated at the needed resolutions ([adm]). *)
Theorem scattering1d_is_convolution : forall (phi : Core1d.filter (nd C) R) psi1s psi2s (two : bool) N ls pre U,
  adm phi psi1s psi2s two N ls true -> nd_wf U -> nd_dtype U = Real -> nd_shape U = pre ++ [N] ->
  exists gen, scattering1d np U phi (if two then [psi1s; psi2s] else [psi1s]) ls true = Ok gen /\
  forall q, In q gen -> nd_shape (p_coef q) = pre ++ [(N / p2 ls)%nat] /\
   forall i, (i < prod pre)%nat ->
   let y := signal (N / p2 ls) i (p_coef q) in let x := signal N i U in
   (p_n q = [] /\ y = sampled_lowpass x (lev phi 0) (p2 ls)) \/
   (exists n1 f1, p_n q = [n1] /\ nth_error psi1s n1 = Some f1 /\
      let k1 := Z.min (f_j f1) ls in
      y = sampled_lowpass (sampled_envelope x (lev f1 0) (p2 k1)) (lev phi k1) (p2 (ls - k1))) \/
   (exists n1 n2 f1 f2, p_n q = [n1; n2] /\ nth_error psi1s n1 = Some f1 /\ nth_error psi2s n2 = Some f2 /\ f_j f1 < f_j f2 /\
      let k1 := Z.min (f_j f1) ls in let k2 := Z.min (f_j f2) ls in
      y = sampled_lowpass (sampled_envelope (sampled_envelope x (lev f1 0) (p2 k1)) (lev f2 k1) (p2 (k2 - k1)))
            (lev phi k2) (p2 (ls - k2))).
Proof.
  intros phi psi1s psi2s two N ls pre U Ha Hw Hd Hs.
  destruct (of_rows_intro U pre N Hw Hs) as (rows & EU & Hr). rewrite Hd in EU.
  destruct (scattering1d_rows complex_ops complex_ops_ok phi psi1s psi2s two N ls true pre rows Hr Ha) as (gen & Eg & Fg).
  exists gen. rewrite EU at 1. split; [exact Eg|]. intros q Hq. rewrite Forall_forall in Fg. destruct (Fg q Hq) as [Ec Rc].
  change (resolution psi1s psi2s ls true (p_n q)) with ls in Ec, Rc. rewrite Ec. split; [reflexivity|]. intros i Hi. cbv zeta.
  rewrite signal_of by exact Rc. rewrite EU, signal_of by exact Hr. destruct Hr as [Hr1 Hr2].
  rewrite (nth_indep _ [] (value complex_ops phi psi1s psi2s N ls true (p_n q) [])) by (rewrite map_length; lia).
  rewrite map_nth. rewrite Forall_forall in Hr2. pose proof (Hr2 (nth i rows []) ltac:(apply nth_In; lia)) as Hrow.
  assert (Hk : valid_key psi1s psi2s two (p_n q)).
  { destruct two.
    - destruct (scattering1d_scales np (of_rows Real pre N rows) phi _ _ ls true gen q Eg Hq)
        as [(K1 & K2)|[(n1 & f1 & K1 & K2 & K3)|(n1 & n2 & f1 & f2 & psi2 & K1 & K2 & K3 & K4 & K5 & K6)]]; rewrite K1.
      + constructor.
      + econstructor; eassumption.
      + cbn in K2. injection K2 as <-. econstructor; try eassumption; reflexivity.
    - destruct (scattering1d_scales np (of_rows Real pre N rows) phi _ _ ls true gen q Eg Hq)
        as [(K1 & K2)|[(n1 & f1 & K1 & K2 & K3)|(n1 & n2 & f1 & f2 & psi2 & K1 & K2 & K3 & K4 & K5 & K6)]]; rewrite K1.
      + constructor.
      + econstructor; eassumption.
      + discriminate. }
  pose proof (value_local phi psi1s psi2s two N ls true Ha (nth i rows []) Hrow (p_n q) eq_refl Hk) as V.
  clear Ec Rc. revert V. generalize dependent (p_n q). intros key Hk V. destruct Hk as [|n1 f1 E1|n1 n2 f1 f2 H2 E1 E2 Hj].
  - left. split; [reflexivity|exact V].
  - right; left. exists n1, f1. split; [reflexivity|]. split; [exact E1|]. exact (V f1 E1).
  - right; right. exists n1, n2, f1, f2. split; [reflexivity|]. split; [exact E1|]. split; [exact E2|]. split; [exact Hj|]. exact (V f1 f2 E1 E2).
Qed.
Print Assumptions scattering1d_is_convolution.

Lemma at_lowpass x w k u : 0 <= u < Z.of_nat (List.length (sampled_lowpass x w k)) ->
  at_ (sampled_lowpass x w k) (Z.to_nat u) = RtoC (Re (cconv x (idft w) (Z.of_nat k * u))).
Proof.
  intros Hu. rewrite sampled_lowpass_length in Hu. unfold sampled_lowpass. rewrite at_map_seq by lia.
  f_equal. f_equal. f_equal. lia.
Qed.

(** ** C25 *)
Theorem C25_zeroth_order : forall support p out s N ls batch x l q i L t,
  constructed support p out s N -> s_average s = Ok Local -> s_log2_stride s = Ok ls ->
  nd_wf x -> nd_shape x = batch ++ [Z.to_nat N] ->
  scattering np (with_out s "list") x = Ok (OutList l) -> In q l -> p_n q = [] ->
  (i < prod batch)%nat -> nd_shape (p_coef q) = batch ++ [L] -> (t < L)%nat ->
  at_ (signal L i (p_coef q)) t =
    RtoC (Re (cconv (padded s (signal (Z.to_nat N) i x)) (idft (lev (s_phi s) 0)) ((first_kept s ls + Z.of_nat t) * 2 ^ ls))).
Proof.
  intros support p out s N ls batch x l q i L t Hc Ea Els Hw Hsh Hrun Hq Hkey Hi HL Ht.
  destruct (local_coefficient _ _ _ _ _ _ _ _ _ _ _ _ _ Hc Ea Els Hw Hsh Hrun Hq Hi HL Ht) as (Ha & Hk & Lp & Bt & ->).
  pose proof (value_length _ _ _ _ _ _ _ _ _ Ha Lp Hk) as Lv. change (resolution (s_psi1 s) (s_psi2 s) ls true (p_n q)) with ls in Lv.
  pose proof (value_local _ _ _ _ _ _ _ Ha _ Lp _ eq_refl Hk) as V. rewrite Hkey in V, Lv |- *.
  rewrite V in Lv |- *. rewrite at_lowpass by (rewrite Lv; exact Bt). rewrite p2_Z by exact (adm_ls _ _ _ _ _ _ _ Ha).
  now rewrite Z.mul_comm.
Qed.
Print Assumptions C25_zeroth_order.

(** ** C26 *)
Theorem C26_first_order : forall support p out s N ls batch x l q i L t n1 f1,
  constructed support p out s N -> s_average s = Ok Local -> s_log2_stride s = Ok ls ->
  nd_wf x -> nd_shape x = batch ++ [Z.to_nat N] ->
  scattering np (with_out s "list") x = Ok (OutList l) -> In q l -> p_n q = [n1] -> nth_error (s_psi1 s) n1 = Some f1 ->
  (i < prod batch)%nat -> nd_shape (p_coef q) = batch ++ [L] -> (t < L)%nat ->
  let k1 := Z.min (f_j f1) ls in
  exists U1,
    List.length U1 = (padded_length s N / p2 k1)%nat /\
    (forall u, (u < List.length U1)%nat ->
       at_ U1 u = RtoC (Cmod (cconv (padded s (signal (Z.to_nat N) i x)) (idft (lev f1 0)) (2 ^ k1 * Z.of_nat u)))) /\
    at_ (signal L i (p_coef q)) t = RtoC (Re (cconv U1 (idft (lev (s_phi s) k1)) ((first_kept s ls + Z.of_nat t) * 2 ^ (ls - k1)))).
Proof.
  intros support p out s N ls batch x l q i L t n1 f1 Hc Ea Els Hw Hsh Hrun Hq Hkey E1 Hi HL Ht k1.
  destruct (local_coefficient _ _ _ _ _ _ _ _ _ _ _ _ _ Hc Ea Els Hw Hsh Hrun Hq Hi HL Ht) as (Ha & Hk & Lp & Bt & ->).
  pose proof (value_length _ _ _ _ _ _ _ _ _ Ha Lp Hk) as Lv. change (resolution (s_psi1 s) (s_psi2 s) ls true (p_n q)) with ls in Lv.
  pose proof (value_local _ _ _ _ _ _ _ Ha _ Lp _ eq_refl Hk) as V. rewrite Hkey in V, Lv |- *.
  specialize (V f1 E1). cbv zeta in V. fold k1 in V.
  destruct (adm_psi1 _ _ _ _ _ _ _ Ha f1 (nth_error_In _ _ E1)) as (Gj & _).
  pose proof (adm_ls _ _ _ _ _ _ _ Ha) as Hls.
  exists (sampled_envelope (padded s (signal (Z.to_nat N) i x)) (lev f1 0) (p2 k1)).
  split; [now rewrite sampled_envelope_length, Lp|]. split.
  - intros u Hu. rewrite sampled_envelope_length in Hu. unfold sampled_envelope. rewrite at_map_seq by exact Hu.
    rewrite Nat2Z.inj_mul, p2_Z by lia. reflexivity.
  - rewrite V in Lv |- *. rewrite at_lowpass by (rewrite Lv; exact Bt). rewrite p2_Z by lia. now rewrite Z.mul_comm.
Qed.
Print Assumptions C26_first_order.

(** ** C27 *)
Theorem C27_second_order : forall support p out s N ls batch x l q i L t n1 n2 f1 f2,
  constructed support p out s N -> s_average s = Ok Local -> s_log2_stride s = Ok ls ->
  nd_wf x -> nd_shape x = batch ++ [Z.to_nat N] ->
  scattering np (with_out s "list") x = Ok (OutList l) -> In q l -> p_n q = [n1; n2] ->
  nth_error (s_psi1 s) n1 = Some f1 -> nth_error (s_psi2 s) n2 = Some f2 ->
  (i < prod batch)%nat -> nd_shape (p_coef q) = batch ++ [L] -> (t < L)%nat ->
  let k1 := Z.min (f_j f1) ls in let k2 := Z.min (f_j f2) ls in
  exists U1 U2,
    List.length U1 = (padded_length s N / p2 k1)%nat /\ List.length U2 = (padded_length s N / p2 k2)%nat /\ k1 <= k2 /\
    (forall u, (u < List.length U1)%nat ->
       at_ U1 u = RtoC (Cmod (cconv (padded s (signal (Z.to_nat N) i x)) (idft (lev f1 0)) (2 ^ k1 * Z.of_nat u)))) /\
    (forall u, (u < List.length U2)%nat ->
       at_ U2 u = RtoC (Cmod (cconv U1 (idft (lev f2 k1)) (2 ^ (k2 - k1) * Z.of_nat u)))) /\
    at_ (signal L i (p_coef q)) t = RtoC (Re (cconv U2 (idft (lev (s_phi s) k2)) ((first_kept s ls + Z.of_nat t) * 2 ^ (ls - k2)))).
Proof.
  intros support p out s N ls batch x l q i L t n1 n2 f1 f2 Hc Ea Els Hw Hsh Hrun Hq Hkey E1 E2 Hi HL Ht k1 k2.
  destruct (local_coefficient _ _ _ _ _ _ _ _ _ _ _ _ _ Hc Ea Els Hw Hsh Hrun Hq Hi HL Ht) as (Ha & Hk & Lp & Bt & ->).
  pose proof (value_length _ _ _ _ _ _ _ _ _ Ha Lp Hk) as Lv. change (resolution (s_psi1 s) (s_psi2 s) ls true (p_n q)) with ls in Lv.
  pose proof (value_local _ _ _ _ _ _ _ Ha _ Lp _ eq_refl Hk) as V.
  rewrite Hkey in Hk. inversion Hk as [|? ? ? |n1' n2' f1' f2' H2 E1' E2' Hj]; subst n1' n2'.
  rewrite E1 in E1'. injection E1' as <-. rewrite E2 in E2'. injection E2' as <-.
  rewrite Hkey in V, Lv |- *. specialize (V f1 f2 E1 E2). cbv zeta in V. fold k1 k2 in V.
  destruct (env2_spec _ _ _ _ _ _ _ Ha _ Lp n1 n2 f1 f2 H2 E1 E2 Hj) as (S2 & L2 & K2 & D2 & B2 & P2).
  unfold kk in S2, L2, K2, D2, B2, P2. fold k1 k2 in S2, L2, K2, D2, B2, P2.
  set (U1 := sampled_envelope (padded s (signal (Z.to_nat N) i x)) (lev f1 0) (p2 k1)) in *.
  exists U1, (sampled_envelope U1 (lev f2 k1) (p2 (k2 - k1))).
  split; [unfold U1; now rewrite sampled_envelope_length, Lp|]. split; [now rewrite <- S2|]. split; [lia|]. split; [|split].
  - intros u Hu. unfold U1 in Hu |- *. rewrite sampled_envelope_length in Hu. unfold sampled_envelope. rewrite at_map_seq by exact Hu.
    rewrite Nat2Z.inj_mul, p2_Z by lia. reflexivity.
  - intros u Hu. rewrite sampled_envelope_length in Hu. unfold sampled_envelope. rewrite at_map_seq by exact Hu.
    rewrite Nat2Z.inj_mul, p2_Z by lia. reflexivity.
  - rewrite V in Lv |- *. rewrite at_lowpass by (rewrite Lv; exact Bt). rewrite p2_Z by (specialize (B2 eq_refl); lia).
    now rewrite Z.mul_comm.
Qed.
Print Assumptions C27_second_order.

(** J = 4, Q = 1, N = 100: a constructed object, its scales, and its runs on any batch. *)
Example concrete_object : exists s,
  constructed (fun _ _ => 30) (mk_params 4 100 (QInt 1) TNone SNone 2) "array" s 100 /\
  s_average s = Ok Local /\ s_log2_stride s = Ok 4 /\
  map f_j (s_psi1 s) = [0; 0; 0; 1; 2] /\ map f_j (s_psi2 s) = [0; 0; 0; 1; 2] /\
  forall b x, nd_wf x -> nd_dtype x = Real -> nd_shape x = [b; 100]%nat ->
    exists l, scattering np (with_out s "list") x = Ok (OutList l) /\
      map p_n l = [[]; [0]; [1]; [2]; [3]; [4]; [0; 3]; [0; 4]; [1; 3]; [1; 4]; [2; 3]; [2; 4]; [3; 4]]%nat.
Proof.
  destruct (constructor_instance (fun _ _ => 30) 4 100 1 "array") as [s Hs]; try (intros; lia).
  set (p := mk_params 4 100 (QInt 1) TNone SNone 2) in *.
  assert (EQ : Q_of (p_Q p) = Ok [QI 1; QI 1]) by reflexivity.
  assert (H30 : forall (n : Z) (t : Q), 0 <= 30) by (intros; lia).
  assert (EN : N_input_of (p_shape p) = Ok 100) by reflexivity.
  assert (HJ : 0 <= p_J p) by (cbn; lia). assert (Hmo : 1 <= p_max_order p <= 2) by (cbn; lia).
  assert (Est : s_log2_stride s = Ok 4 /\ s_average s = Ok Local).
  { pose proof Hs as Hs'. apply new_inv in Hs'. destruct Hs' as (b & Qs & T & l & phi & psi1s & psi2s & Hb & _ & _ & _ & _ & _ & ->).
    destruct (build_inv _ _ _ Hb) as (st & T' & l' & r & EN' & EO & _ & _ & Eb).
    cbn in EO. injection EO as <-. cbn in EN'. injection EN' as EN'. rewrite Eb. cbn [b_N b_stride s_log2_stride s_average].
    rewrite <- EN'. split; reflexivity. }
  destruct Est as [Els Ea].
  destruct (new_banks _ _ _ _ Hs _ _ EQ) as (P1 & P2 & J1 & J2). change (p_J p) with 4 in P1, P2.
  pose proof (anden_unique _ _ _ _ _ _ (anden_list_ok 4 1 ltac:(lia) ltac:(lia)) (anden_Q1 4 ltac:(lia))) as E.
  assert (G : forall fs : list (Core1d.filter (nd C) R), map params_of fs = anden_list 4 1 sigma0 r_psi ->
     Forall (fun f => f_j f = scale (f_xi f) (f_sigma f)) fs -> map f_j fs = [0; 0; 0; 1; 2]).
  { intros fs Hp Hj. rewrite E in Hp. transitivity (map (fun a => scale (fst a) (snd a)) (map params_of fs)).
    - clear - Hj. induction Hj as [|f fs Ef _ IH]; [reflexivity|]. cbn [map params_of fst snd]. now rewrite Ef, IH.
    - rewrite Hp, map_map. change (seq 0 (S (Z.to_nat 4))) with [0; 1; 2; 3; 4]%nat. cbn [map fst snd]. now rewrite !scale_Q1. }
  pose proof (G _ P1 J1) as F1. pose proof (G _ P2 J2) as F2.
  exists s. split; [unfold constructed; repeat split; (assumption || (cbn; lia))|]. split; [exact Ea|]. split; [exact Els|]. split; [exact F1|]. split; [exact F2|].
  intros b x Hw Hd Hsh.
  destruct (C15_total_partial (fun _ _ => 30) p "array" s 100 1 1 4 4 H30 Hs EN ltac:(lia) HJ Hmo EQ ltac:(lia) Ea Els eq_refl
    ltac:(lia) [b] x Hd Hw Hsh) as ((l & Hl) & _).
  exists l. split; [exact Hl|].
  apply scattering_list_inv in Hl. destruct Hl as (S & HS & ->). rewrite paths_with_out in HS.
  pose proof (new_order _ _ _ _ Hs) as Emo.
  rewrite (paths_sorted_keys np s x S) by (try exact HS; rewrite Emo; exact Hmo).
  unfold j1s, j2s. rewrite F1, F2, Emo. reflexivity.
Qed.

(** Paths of the three orders with 6 or 7 time samples for each of 3 signals: the hypotheses of C25, C26, C27. *)
Example C25_C27_instance : exists s l q0 q1 q2 f1 f2 L,
  let x := mk_nd Real [3; 100]%nat (map (fun i => RtoC (INR i)) (seq 0 300)) in
  constructed (fun _ _ => 30) (mk_params 4 100 (QInt 1) TNone SNone 2) "array" s 100 /\ s_average s = Ok Local /\
  s_log2_stride s = Ok 4 /\ nd_wf x /\ scattering np (with_out s "list") x = Ok (OutList l) /\
  In q0 l /\ p_n q0 = [] /\ In q1 l /\ p_n q1 = [0]%nat /\ nth_error (s_psi1 s) 0 = Some f1 /\
  In q2 l /\ p_n q2 = [0; 4]%nat /\ nth_error (s_psi2 s) 4 = Some f2 /\ (6 <= L <= 7)%nat /\
  nd_shape (p_coef q0) = [3; L]%nat /\ nd_shape (p_coef q1) = [3; L]%nat /\ nd_shape (p_coef q2) = [3; L]%nat.
Proof.
  destruct concrete_object as (s & Hc & Ea & Els & F1 & F2 & Run).
  set (x := mk_nd Real [3; 100]%nat (map (fun i => RtoC (INR i)) (seq 0 300))).
  assert (Hw : nd_wf x) by reflexivity.
  destruct (Run 3%nat x Hw eq_refl eq_refl) as (l & Hl & Hk).
  assert (K : forall key, In key (map p_n l) -> exists q, In q l /\ p_n q = key).
  { intros key H. apply in_map_iff in H as (q & E & Hq). eauto. }
  destruct (K []) as (q0 & I0 & E0); [rewrite Hk; cbn; tauto|].
  destruct (K [0%nat]) as (q1 & I1 & E1); [rewrite Hk; cbn; tauto|].
  destruct (K [0; 4]%nat) as (q2 & I2 & E2); [rewrite Hk; cbn; tauto|].
  assert (exists f1, nth_error (s_psi1 s) 0 = Some f1) as [f1 Hf1].
  { destruct (s_psi1 s) as [|f fs]; [discriminate|]. exists f. reflexivity. }
  assert (exists f2, nth_error (s_psi2 s) 4 = Some f2) as [f2 Hf2].
  { destruct (nth_error (s_psi2 s) 4) as [f|] eqn:En; [eauto|]. apply nth_error_None in En.
    rewrite <- (map_length f_j), F2 in En. cbn in En. lia. }
  exists s, l, q0, q1, q2, f1, f2, (n_multiples 4 (s_pad_left s) 100). cbv zeta.
  pose proof Hc as (H30 & Hs & EN & HN & HJ & Hmo).
  destruct (C04_time_samples _ _ _ s 100 4 [3]%nat x l H30 Hs EN HN HJ Hmo Ea Els Hw eq_refl ltac:(cbn; lia) Hl) as (Sh & B & _).
  change (100 / 2 ^ 4) with 6 in B. change ((100 + 2 ^ 4 - 1) / 2 ^ 4) with 7 in B.
  repeat split; try assumption; try lia; apply Sh; assumption.
Qed.

(** ** C28 *)
Theorem C28_levels_are_sampled : forall support p out s N f k w0 w,
  constructed support p out s N -> stored s f -> nth_error (f_levels f) 0 = Some w0 -> nth_error (f_levels f) k = Some w ->
  let Np := padded_length s N in
  Nat.divide (2 ^ k) Np /\ nd_shape w0 = [Np] /\ nd_shape w = [(Np / 2 ^ k)%nat] /\
  (forall u, (u < Np / 2 ^ k)%nat ->
     at_ (idft (nd_data w)) u = (RtoC (INR (2 ^ k)) * at_ (idft (nd_data w0)) (2 ^ k * u))%C) /\
  (* convolution of a decimated signal with the level = Riemann sum of the full-rate convolution *)
  (forall x y, List.length x = Np -> List.length y = (Np / 2 ^ k)%nat ->
     (forall m, (m < Np / 2 ^ k)%nat -> at_ y m = at_ x (2 ^ k * m)) -> forall t,
     cconv y (idft (nd_data w)) t =
       csum (Np / 2 ^ k) (fun m => at_ x (2 ^ k * m) *
         (RtoC (INR (2 ^ k)) * at_ (idft (nd_data w0)) (Z.to_nat ((2 ^ Z.of_nat k * (t - Z.of_nat m)) mod Z.of_nat Np))))%C) /\
  (* without aliasing between the spectra of the signal and of the filter, it is the decimated full-rate convolution *)
  (forall x y, List.length x = Np -> List.length y = (Np / 2 ^ k)%nat ->
     (forall m, (m < Np / 2 ^ k)%nat -> at_ y m = at_ x (2 ^ k * m)) ->
     (forall i r r', (i < Np / 2 ^ k)%nat -> (r < 2 ^ k)%nat -> (r' < 2 ^ k)%nat -> r <> r' ->
        (at_ (dft x) (r * (Np / 2 ^ k) + i) * at_ (nd_data w0) (r' * (Np / 2 ^ k) + i))%C = RtoC 0) -> forall t,
     cconv y (idft (nd_data w)) t = cconv x (idft (nd_data w0)) (2 ^ Z.of_nat k * t)).
Proof.
  intros support p out s N f k w0 w (Hsup & H & EN & HN & HJ & Hmo) Hf Ew0 Ew. cbv zeta.
  pose proof (new_filters _ _ _ _ _ Hsup H EN HN HJ) as (HNp & _ & Tphi & Tpsi). set (Np := padded_length s N) in *.
  assert (T : exists full, tabulated Np full f).
  { destruct Hf as [->|Hf]; [eauto|]. destruct (Tpsi f Hf) as (_ & _ & T). eauto. }
  destruct T as [full T]. pose proof (tb_0 _ _ _ T) as E0. rewrite E0 in Ew0. injection Ew0 as ->.
  pose proof (tb_len _ _ _ T) as Lw0. destruct (tb_k _ _ _ T k w Ew) as (D & S & Lw & Vw). 
  destruct D as [m Hm]. assert (P0 : (0 < 2 ^ k)%nat) by (pose proof (Nat.pow_nonzero 2 k); lia).
  assert (Em : (Np / 2 ^ k = m)%nat) by (rewrite Hm; apply Nat.div_mul; lia). rewrite Em in *.
  set (K := (2 ^ k)%nat) in *. assert (Hm0 : (0 < m)%nat) by nia.
  assert (EK : 2 ^ Z.of_nat k = Z.of_nat K) by (unfold K; now rewrite Nat2Z.inj_pow).
  assert (Samp : forall a, idft_at m (at_ (nd_data w)) a = (RtoC (INR K) * idft_at (K * m) (at_ (nd_data w0)) (Z.of_nat K * a))%C).
  { intros a. rewrite <- subsample_idft by assumption.
    rewrite (idft_at_ext m (at_ (nd_data w)) (fun i => csum K (fun r => at_ (nd_data w0) (r * m + i)))) by (intros; now apply Vw).
    unfold idft_at. unfold Cdiv.
    rewrite (csum_ext m (fun i => csum K (fun r => at_ (nd_data w0) (r * m + i)) * / RtoC (INR K) * root m (Z.of_nat i * a))%C
      (fun i => (/ RtoC (INR K) * (csum K (fun r => at_ (nd_data w0) (r * m + i)) * root m (Z.of_nat i * a)))%C)) by (intros; ring).
    rewrite csum_scal. field. split; apply INR_N_C; lia. }
  assert (ENp : Np = (K * m)%nat) by lia.
  split; [exists m; lia|]. split; [exact (tb_shape _ _ _ T)|]. split; [exact S|]. split; [|split].
  - intros u Hu. rewrite at_idft by (rewrite Lw; exact Hu). rewrite Lw, Samp.
    rewrite at_idft by (rewrite Lw0; nia). rewrite Lw0, ENp. f_equal. f_equal. lia.
  - intros x y Lx Ly Hy t. unfold cconv. rewrite Ly. apply csum_ext. intros i Hi. rewrite Hy by exact Hi. f_equal.
    rewrite <- Lw. rewrite at_idft_mod by lia. rewrite Lw, Samp. f_equal.
    rewrite <- Lw0. rewrite at_idft_mod by lia. rewrite Lw0, ENp, EK. reflexivity.
  - intros x y Lx Ly Hy Hal t.
    rewrite <- (idft_product x (nd_data w0)) by lia. rewrite <- (idft_product y (nd_data w)) by lia.
    rewrite Ly, Lx, ENp, EK.
    rewrite <- subsample_idft by assumption. apply idft_at_ext. intros i Hi.
    rewrite at_mul by (rewrite dft_length; congruence). rewrite at_dft by lia. rewrite Ly.
    rewrite (dft_at_ext m (at_ y) (fun u => at_ x (K * u)%nat)) by (intros; now apply Hy).
    rewrite dft_decimate by assumption. rewrite Vw by exact Hi.
    rewrite (csum_ext K (fun r => at_ (mul_row complex_ops (nd_data w0) (dft x)) (r * m + i))
       (fun r => (dft_at (K * m) (at_ x) (Z.of_nat (r * m + i)) * csum K (fun r' => at_ (nd_data w0) (r' * m + i)))%C)).
    + rewrite csum_scal_r. unfold Cdiv. ring.
    + intros r Hr. assert (Hri : (r * m + i < Np)%nat) by nia.
      rewrite at_mul by (rewrite dft_length; congruence). rewrite at_dft by lia. rewrite Lx, ENp.
      rewrite <- csum_scal. symmetry. apply (csum_single K (fun r' => (dft_at (K * m) (at_ x) (Z.of_nat (r * m + i)) * at_ (nd_data w0) (r' * m + i))%C) r Hr).
      intros j Hj Hne. specialize (Hal i r j Hi Hr Hj (not_eq_sym Hne)). rewrite at_dft in Hal by lia. rewrite Lx, ENp in Hal. exact Hal.
Qed.
Print Assumptions C28_levels_are_sampled.

(** The low-pass filter of the object above at level 1, the wavelets at level 0. *)
Example C28_instance : exists s w0 w1,
  constructed (fun _ _ => 30) (mk_params 4 100 (QInt 1) TNone SNone 2) "array" s 100 /\
  stored s (s_phi s) /\ nth_error (f_levels (s_phi s)) 0 = Some w0 /\ nth_error (f_levels (s_phi s)) 1 = Some w1.
Proof.
  destruct concrete_object as (s & Hc & Ea & Els & F1 & F2 & Run). pose proof Hc as (H30 & Hs & EN & HN & HJ & Hmo).
  set (x := mk_nd Real [3; 100]%nat (map (fun i => RtoC (INR i)) (seq 0 300))).
  destruct (Run 3%nat x eq_refl eq_refl eq_refl) as (l & Hl & Hk).
  destruct (run_final _ _ _ _ _ [3]%nat x _ H30 Hs EN HN HJ Hmo eq_refl eq_refl ltac:(cbn; lia) Hl) as (_ & pl & pr & m & ls & a & Rd & _).
  pose proof (rd_avg _ _ _ _ _ _ _ Rd) as Ea'. rewrite Ea in Ea'. injection Ea' as <-.
  pose proof (rd_stride _ _ _ _ _ _ _ Rd) as Els'. rewrite Els in Els'. injection Els' as <-.
  pose proof (rd_adm _ _ _ _ _ _ _ Rd) as Ha. cbn [is_local] in Ha.
  destruct (adm_phi _ _ _ _ _ _ _ Ha eq_refl) as [_ (w0 & W0 & _)].
  assert (exists f3, nth_error (s_psi1 s) 3 = Some f3 /\ f_j f3 = 1) as (f3 & Hf3 & Ej).
  { pose proof (nth_error_map f_j 3 (s_psi1 s)) as En. rewrite F1 in En. change (nth_error [0; 0; 0; 1; 2] 3) with (Some 1) in En.
    destruct (nth_error (s_psi1 s) 3) as [f|]; [|discriminate]. cbn in En. exists f. split; [reflexivity|congruence]. }
  destruct (adm_psi1 _ _ _ _ _ _ _ Ha f3 (nth_error_In _ _ Hf3)) as (_ & _ & _ & G). 
  destruct (G eq_refl) as (w1 & W1 & _). unfold kk in W1. rewrite Ej in W1.
  exists s, w0, w1. split; [exact Hc|]. split; [now left|]. split; [exact W0|exact W1].
Qed.
