(** Action of scalings, shifts and added constants of one padded signal on the coefficients; l1 norms of the
    tabulated filters. *)
From Coq Require Import String Reals ZArith QArith List Bool Lia Lra Permutation.
From Coquelicot Require Import Complex.
From Verif Require Import Base BaseProofs NdArray Backend Core1d Utils1d Utils1dProofs Frontend1d Spec1d Core1dProofs
  Frontend1dProofs NdProofs Rows1d FrontRows Factory1d FactoryProofs ComplexOps FilterBank1d FilterBank1dProofs Construct1d
  Shape1d PropFilters1d PropShapes1d Dft Conv1d Value1d Tabulated1d PropNumerics1d.
Import ListNotations.
Local Open Scope Z_scope.
Local Open Scope res_scope.

(** ** Padding commutes with pointwise maps *)
Lemma reflect_lt n l r p : (l < n)%nat -> (r < n)%nat -> (p < l + n + r)%nat -> (reflect_index n (Z.of_nat p - Z.of_nat l) < n)%nat.
Proof. intros Hl Hr Hp. unfold reflect_index. destruct (Z.ltb_spec (Z.of_nat p - Z.of_nat l) 0); [lia|]. destruct (Z.ltb_spec (Z.of_nat p - Z.of_nat l) (Z.of_nat n)); lia. Qed.
Lemma pad_map (g : C -> C) l r n row : List.length row = n -> (l < n)%nat -> (r < n)%nat ->
  pad_reflect_row complex_ops l r n (map g row) = map g (pad_reflect_row complex_ops l r n row).
Proof.
  intros Hn Hl Hr. unfold pad_reflect_row. rewrite map_map. apply map_ext_in. intros p Hp. apply in_seq in Hp.
  change (o_zero complex_ops) with (RtoC 0). apply (at_map_C g row). rewrite Hn. apply (reflect_lt n l r p); lia.
Qed.
Lemma at_pad l r n row p : (p < l + n + r)%nat ->
  at_ (pad_reflect_row complex_ops l r n row) p = at_ row (reflect_index n (Z.of_nat p - Z.of_nat l)).
Proof. intros Hp. unfold pad_reflect_row. rewrite at_map_seq by exact Hp. reflexivity. Qed.
Lemma slice_map {A B} (g : A -> B) a c l : slice a c (map g l) = map g (slice a c l).
Proof. unfold slice. now rewrite skipn_map, firstn_map. Qed.

(** ** Envelopes and low-passes *)
Lemma envelope_zero_mean c x w k : List.length w = List.length x -> at_ w 0 = RtoC 0 ->
  sampled_envelope (map (Cplus c) x) w k = sampled_envelope x w k.
Proof.
  intros Hw H0. unfold sampled_envelope. rewrite map_length.
  destruct (Nat.eq_dec (List.length x) 0) as [E|E].
  - rewrite E. destruct k; [reflexivity|]. now rewrite Nat.div_0_l.
  - apply map_ext. intros u. rewrite cconv_add_const by lia. rewrite H0. f_equal. f_equal. ring.
Qed.
Lemma lowpass_const (c b : R) x w k : List.length w = List.length x -> at_ w 0 = RtoC b ->
  sampled_lowpass (map (Cplus (RtoC c)) x) w k = map (Cplus (RtoC (c * b))) (sampled_lowpass x w k).
Proof.
  intros Hw H0. unfold sampled_lowpass. rewrite map_length, map_map.
  destruct (Nat.eq_dec (List.length x) 0) as [E|E].
  - rewrite E. destruct k; [reflexivity|]. now rewrite Nat.div_0_l.
  - apply map_ext. intros u. rewrite cconv_add_const by lia. rewrite H0, <- RtoC_mult, <- RtoC_plus. f_equal. unfold Re, RtoC, Cplus. cbn [fst snd]. lra.
Qed.
Lemma map_id_C x : map (Cplus (RtoC 0)) x = x.
Proof. rewrite <- (map_id x) at 2. apply map_ext. intros; ring. Qed.
Lemma at_repeat_C c n i : (i < n)%nat -> at_ (repeat c n) i = c.
Proof. revert i. induction n; intros i H; [lia|]. destruct i; [reflexivity|]. apply IHn. lia. Qed.
Lemma envelope_of_const c n w k : List.length w = n -> at_ w 0 = RtoC 0 ->
  sampled_envelope (repeat c n) w k = repeat (RtoC 0) (n / k).
Proof.
  intros Hw H0. unfold sampled_envelope. rewrite repeat_length.
  apply list_ext; [now rewrite map_length, seq_length, repeat_length|]. rewrite map_length, seq_length. intros u Hu.
  rewrite at_map_seq by exact Hu. rewrite at_repeat_C by exact Hu.
  assert (0 < n)%nat by (destruct n; [destruct k; cbn in Hu; lia|lia]).
  rewrite (cconv_const c) by (rewrite ?repeat_length, ?idft_length; try lia; intros; apply at_repeat_C; assumption).
  rewrite idft_length, csum_idft, H0 by lia. replace (c * RtoC 0)%C with (RtoC 0) by ring. now rewrite Cmod_0.
Qed.
Lemma cconv_zero n h t : cconv (repeat (RtoC 0) n) h t = RtoC 0.
Proof.
  unfold cconv. rewrite repeat_length. rewrite (csum_ext _ _ (fun _ => RtoC 0)); [now apply csum_0|].
  intros m Hm. 
  rewrite at_repeat_C by exact Hm. ring.
Qed.
Lemma envelope_of_zero n w k : sampled_envelope (repeat (RtoC 0) n) w k = repeat (RtoC 0) (n / k).
Proof.
  unfold sampled_envelope. rewrite repeat_length. apply list_ext; [now rewrite map_length, seq_length, repeat_length|].
  rewrite map_length, seq_length. intros u Hu. rewrite at_map_seq, at_repeat_C by exact Hu. now rewrite cconv_zero, Cmod_0.
Qed.
Lemma lowpass_of_zero n w k : sampled_lowpass (repeat (RtoC 0) n) w k = repeat (RtoC 0) (n / k).
Proof.
  unfold sampled_lowpass. rewrite repeat_length. apply list_ext; [now rewrite map_length, seq_length, repeat_length|].
  rewrite map_length, seq_length. intros u Hu. rewrite at_map_seq, at_repeat_C by exact Hu. now rewrite cconv_zero.
Qed.

(** ** Coefficients of one padded signal *)
Section Values.
Context {P : Type}.
Notation filter := (Core1d.filter (nd C) P).
Variables (phi : filter) (psi1s psi2s : list filter) (two : bool) (N : nat) (ls : Z) (al : bool).
Hypothesis (Ha : adm phi psi1s psi2s two N ls al).
Notation val := (value complex_ops phi psi1s psi2s N ls al).

Lemma value_scal c row key : List.length row = N -> valid_key psi1s psi2s two key ->
  val key (map (Cmult (RtoC c)) row) = map (Cmult (RtoC (match key with [] => c | _ => Rabs c end))) (val key row).
Proof.
  intros Hrow Hk. assert (Hrow' : List.length (map (Cmult (RtoC c)) row) = N) by now rewrite map_length.
  destruct al eqn:Eal.
  - pose proof (value_local _ _ _ _ _ _ _ Ha _ Hrow _ eq_refl Hk) as V.
    pose proof (value_local _ _ _ _ _ _ _ Ha _ Hrow' _ eq_refl Hk) as V'.
    destruct Hk as [|n1 f1 E1|n1 n2 f1 f2 H2 E1 E2 Hj].
    + rewrite V, V'. apply lowpass_scal.
    + rewrite (V f1 E1), (V' f1 E1). now rewrite envelope_scal, lowpass_scal.
    + rewrite (V f1 f2 E1 E2), (V' f1 f2 E1 E2). now rewrite !envelope_scal, Rabs_Rabsolu, lowpass_scal.
  - pose proof (value_plain _ _ _ _ _ _ _ Ha _ Hrow _ eq_refl Hk) as V.
    pose proof (value_plain _ _ _ _ _ _ _ Ha _ Hrow' _ eq_refl Hk) as V'.
    destruct Hk as [|n1 f1 E1|n1 n2 f1 f2 H2 E1 E2 Hj].
    + now rewrite V, V'.
    + rewrite (V f1 E1), (V' f1 E1). now rewrite envelope_scal.
    + rewrite (V f1 f2 E1 E2), (V' f1 f2 E1 E2). now rewrite !envelope_scal, Rabs_Rabsolu.
Qed.

Lemma value_rotate d row key : al = true -> List.length row = N -> valid_key psi1s psi2s two key ->
  val key (rotate (Z.of_nat (p2 ls) * d) row) = rotate d (val key row).
Proof.
  intros Hal Hrow Hk. assert (Hrow' : List.length (rotate (Z.of_nat (p2 ls) * d) row) = N) by now rewrite rotate_length.
  pose proof (value_local _ _ _ _ _ _ _ Ha _ Hrow _ Hal Hk) as V.
  pose proof (value_local _ _ _ _ _ _ _ Ha _ Hrow' _ Hal Hk) as V'.
  pose proof (adm_N _ _ _ _ _ _ _ Ha) as HN. pose proof (adm_ls _ _ _ _ _ _ _ Ha) as Hls.
  destruct (adm_phi _ _ _ _ _ _ _ Ha Hal) as [Dl _].
  assert (Sp : forall k, 0 <= k <= ls -> Z.of_nat (p2 ls) * d = Z.of_nat (p2 k) * (Z.of_nat (p2 (ls - k)) * d)).
  { intros k Hkk. replace ls with (k + (ls - k)) at 1 by lia. rewrite p2_add by lia. lia. }
  destruct Hk as [|n1 f1 E1|n1 n2 f1 f2 H2 E1 E2 Hj].
  - rewrite V, V'. apply rotate_lowpass; [apply p2_pos|now rewrite Hrow|lia].
  - rewrite (V f1 E1), (V' f1 E1). cbv zeta.
    destruct (adm_psi1 _ _ _ _ _ _ _ Ha f1 (nth_error_In _ _ E1)) as (G1 & _).
    assert (K1 : 0 <= Z.min (f_j f1) ls <= ls) by lia. set (k1 := Z.min (f_j f1) ls) in *.
    destruct (p2_divide _ _ _ K1 Dl) as (D1 & D2 & _). pose proof (div_p2_pos k1 N HN D1).
    rewrite (Sp k1 K1), rotate_envelope by (rewrite ?Hrow; try lia; try assumption; apply p2_pos).
    apply rotate_lowpass; [apply p2_pos|..]; rewrite sampled_envelope_length, Hrow; assumption.
  - rewrite (V f1 f2 E1 E2), (V' f1 f2 E1 E2). cbv zeta.
    destruct (adm_psi1 _ _ _ _ _ _ _ Ha f1 (nth_error_In _ _ E1)) as (G1 & _).
    assert (K1 : 0 <= Z.min (f_j f1) ls <= ls) by lia. assert (K2 : 0 <= Z.min (f_j f2) ls <= ls) by lia.
    assert (K12 : Z.min (f_j f1) ls <= Z.min (f_j f2) ls) by lia.
    set (k1 := Z.min (f_j f1) ls) in *. set (k2 := Z.min (f_j f2) ls) in *.
    destruct (p2_divide _ _ _ K1 Dl) as (D1 & D2 & _). pose proof (div_p2_pos k1 N HN D1).
    destruct (p2_divide _ _ _ K2 Dl) as (D3 & D4 & _). pose proof (div_p2_pos k2 N HN D3).
    destruct (p2_divide k1 k2 N ltac:(lia) D3) as (_ & D5 & D6).
    rewrite (Sp k1 K1), rotate_envelope by (rewrite ?Hrow; try lia; try assumption; apply p2_pos).
    replace (Z.of_nat (p2 (ls - k1)) * d) with (Z.of_nat (p2 (k2 - k1)) * (Z.of_nat (p2 (ls - k2)) * d)).
    2:{ replace (ls - k1) with ((k2 - k1) + (ls - k2)) by lia. rewrite p2_add by lia. lia. }
    rewrite rotate_envelope; [|apply p2_pos|rewrite sampled_envelope_length, Hrow; assumption|rewrite sampled_envelope_length, Hrow; assumption].
    apply rotate_lowpass; [apply p2_pos|..]; rewrite !sampled_envelope_length, Hrow, D6; assumption.
Qed.

(** Zero-mean first-order wavelets. *)
Lemma value_add_const c row key : List.length row = N -> valid_key psi1s psi2s two key -> key <> [] ->
  (forall f, In f psi1s -> at_ (lev f 0) 0 = RtoC 0) ->
  val key (map (Cplus c) row) = val key row.
Proof.
  intros Hrow Hk Hne H0. assert (Hrow' : List.length (map (Cplus c) row) = N) by now rewrite map_length.
  assert (HL : forall n1 f1, nth_error psi1s n1 = Some f1 -> List.length (lev f1 0) = List.length row).
  { intros n1 f1 E1. destruct (adm_psi1 _ _ _ _ _ _ _ Ha f1 (nth_error_In _ _ E1)) as (_ & (w & W1 & _ & _ & W2) & _).
    unfold lev. rewrite W1. congruence. }
  destruct al eqn:Eal.
  - pose proof (value_local _ _ _ _ _ _ _ Ha _ Hrow _ eq_refl Hk) as V.
    pose proof (value_local _ _ _ _ _ _ _ Ha _ Hrow' _ eq_refl Hk) as V'.
    destruct Hk as [|n1 f1 E1|n1 n2 f1 f2 H2 E1 E2 Hj]; [congruence| |].
    + rewrite (V f1 E1), (V' f1 E1). cbv zeta. now rewrite envelope_zero_mean by (eauto using nth_error_In).
    + rewrite (V f1 f2 E1 E2), (V' f1 f2 E1 E2). cbv zeta. now rewrite envelope_zero_mean by (eauto using nth_error_In).
  - pose proof (value_plain _ _ _ _ _ _ _ Ha _ Hrow _ eq_refl Hk) as V.
    pose proof (value_plain _ _ _ _ _ _ _ Ha _ Hrow' _ eq_refl Hk) as V'.
    destruct Hk as [|n1 f1 E1|n1 n2 f1 f2 H2 E1 E2 Hj]; [congruence| |].
    + rewrite (V f1 E1), (V' f1 E1). now rewrite envelope_zero_mean by (eauto using nth_error_In).
    + rewrite (V f1 f2 E1 E2), (V' f1 f2 E1 E2). now rewrite envelope_zero_mean by (eauto using nth_error_In).
Qed.
Lemma value_add_const0 (c b : R) row : List.length row = N -> (al = true -> at_ (lev phi 0) 0 = RtoC b) ->
  val [] (map (Cplus (RtoC c)) row) = map (Cplus (RtoC (if al then c * b else c))) (val [] row).
Proof.
  intros Hrow H0. assert (Hrow' : List.length (map (Cplus (RtoC c)) row) = N) by now rewrite map_length.
  destruct al eqn:Eal.
  - pose proof (value_local _ _ _ two _ _ _ Ha _ Hrow _ eq_refl (vk0 _ _ _)) as V.
    pose proof (value_local _ _ _ two _ _ _ Ha _ Hrow' _ eq_refl (vk0 _ _ _)) as V'. cbn beta iota in V, V'.
    rewrite V, V'. apply lowpass_const; [|auto]. rewrite Hrow.
    destruct (adm_phi _ _ _ _ _ _ _ Ha eq_refl) as (_ & w & W1 & _ & _ & W2). unfold lev. now rewrite W1.
  - pose proof (value_plain _ _ _ two _ _ _ Ha _ Hrow _ eq_refl (vk0 _ _ _)) as V.
    pose proof (value_plain _ _ _ two _ _ _ Ha _ Hrow' _ eq_refl (vk0 _ _ _)) as V'. cbn beta iota in V, V'.
    now rewrite V, V'.
Qed.
Lemma value_of_const c key : valid_key psi1s psi2s two key -> key <> [] ->
  (forall f, In f psi1s -> at_ (lev f 0) 0 = RtoC 0) -> exists n, val key (repeat c N) = repeat (RtoC 0) n.
Proof.
  intros Hk Hne H0. assert (Hrow : List.length (repeat c N) = N) by apply repeat_length.
  assert (HL : forall n1 f1, nth_error psi1s n1 = Some f1 -> List.length (lev f1 0) = N).
  { intros n1 f1 E1. destruct (adm_psi1 _ _ _ _ _ _ _ Ha f1 (nth_error_In _ _ E1)) as (_ & (w & W1 & _ & _ & W2) & _).
    unfold lev. rewrite W1. congruence. }
  destruct al eqn:Eal.
  - pose proof (value_local _ _ _ _ _ _ _ Ha _ Hrow _ eq_refl Hk) as V.
    destruct Hk as [|n1 f1 E1|n1 n2 f1 f2 H2 E1 E2 Hj]; [congruence| |].
    + rewrite (V f1 E1). cbv zeta. rewrite envelope_of_const by (eauto using nth_error_In). rewrite lowpass_of_zero. eauto.
    + rewrite (V f1 f2 E1 E2). cbv zeta. rewrite envelope_of_const by (eauto using nth_error_In). rewrite envelope_of_zero, lowpass_of_zero. eauto.
  - pose proof (value_plain _ _ _ _ _ _ _ Ha _ Hrow _ eq_refl Hk) as V.
    destruct Hk as [|n1 f1 E1|n1 n2 f1 f2 H2 E1 E2 Hj]; [congruence| |].
    + rewrite (V f1 E1). rewrite envelope_of_const by (eauto using nth_error_In). eauto.
    + rewrite (V f1 f2 E1 E2). rewrite envelope_of_const by (eauto using nth_error_In). rewrite envelope_of_zero. eauto.
Qed.
End Values.

(** ** Two runs of one object *)
Theorem run_both support p out s N batch x y l :
  constructed support p out s N -> nd_wf x -> nd_shape x = batch ++ [Z.to_nat N] -> (0 < prod batch)%nat ->
  scattering np (with_out s "list") x = Ok (OutList l) ->
  nd_wf y -> nd_dtype y = Real -> nd_shape y = batch ++ [Z.to_nat N] ->
  exists l' pl pr m ls a, scattering np (with_out s "list") y = Ok (OutList l') /\ map p_n l' = map p_n l /\
    ready s (Z.to_nat N) pl pr m ls a /\
    forall q q', In q l -> In q' l' -> p_n q' = p_n q ->
      valid_key (s_psi1 s) (s_psi2 s) (s_max_order s =? 2) (p_n q) /\
      let L := final_len s (Z.to_nat N) pl ls a (p_n q) in
      nd_shape (p_coef q) = batch ++ [L] /\ nd_shape (p_coef q') = batch ++ [L] /\
      forall i, (i < prod batch)%nat ->
        List.length (signal (Z.to_nat N) i x) = Z.to_nat N /\ List.length (signal (Z.to_nat N) i y) = Z.to_nat N /\
        signal L i (p_coef q) = final complex_ops s (Z.to_nat N) pl pr ls a (p_n q) (signal (Z.to_nat N) i x) /\
        signal L i (p_coef q') = final complex_ops s (Z.to_nat N) pl pr ls a (p_n q) (signal (Z.to_nat N) i y).
Proof.
  intros (Hsup & H & EN & HN & HJ & Hmo) Hw Hsh Hb Hrun Hwy Hdy Hsy.
  destruct (run_final _ _ _ _ _ _ _ _ Hsup H EN HN HJ Hmo Hw Hsh Hb Hrun) as (Hd & pl & pr & m & ls & a & Rd & F).
  pose proof (new_order _ _ _ _ H) as Emo.
  destruct (of_rows_intro y batch _ Hwy Hsy) as (rows & Ey & Hr). rewrite Hdy in Ey.
  destruct (paths_rows complex_ops complex_ops_ok s _ _ _ _ _ _ Rd batch rows Hr) as (S' & ES' & F').
  rewrite <- Ey in ES'.
  exists (sort_paths S'), pl, pr, m, ls, a.
  pose proof Hrun as Hrun'. apply scattering_list_inv in Hrun'. destruct Hrun' as (S & HS & El). rewrite paths_with_out in HS.
  split; [|split; [|split]].
  - eapply list_run; [exact (rd_avg _ _ _ _ _ _ _ Rd)|exact Hsy|exact ES'].
  - rewrite El. rewrite (paths_sorted_keys np s x S) by (try assumption; lia). apply (paths_sorted_keys np s y S'); [lia|exact ES'].
  - exact Rd.
  - intros q q' Hq Hq' Eq. rewrite Forall_forall in F, F'. destruct (F q Hq) as (Hk & Sh & Val). split; [exact Hk|]. cbv zeta.
    split; [exact Sh|].
    apply (Permutation_in _ (map_sort_paths S')) in Hq'. destruct (F' q' Hq') as [Ec Rc]. rewrite Ec, Eq in *.
    split; [reflexivity|]. intros i Hi.
    split; [eapply signal_length; eassumption|]. split; [eapply signal_length; eassumption|]. split; [now apply Val|].
    rewrite signal_of by exact Rc. rewrite Ey, signal_of by exact Hr.
    rewrite (nth_indep _ [] (final complex_ops s (Z.to_nat N) pl pr ls a (p_n q) [])) by (rewrite map_length; destruct Hr; lia).
    apply map_nth.
Qed.

(** ** Filters *)
Lemma rsum_ext n f g : (forall i, (i < n)%nat -> f i = g i) -> rsum n f = rsum n g.
Proof. induction n; intros H; [reflexivity|]. cbn. rewrite IHn, H; auto. Qed.
Lemma rsum_csum n f : csum n (fun i => RtoC (f i)) = RtoC (rsum n f).
Proof. induction n; [reflexivity|]. cbn [csum rsum]. now rewrite IHn, RtoC_plus. Qed.
Lemma rsum_pos n f : (forall i, (i < n)%nat -> 0 <= f i)%R -> (0 <= rsum n f)%R.
Proof. induction n; intros H; cbn; [lra|]. pose proof (IHn ltac:(auto)). pose proof (H n ltac:(lia)). lra. Qed.
Lemma rsum_term n f i : (forall i, (i < n)%nat -> 0 <= f i)%R -> (i < n)%nat -> (f i <= rsum n f)%R.
Proof.
  induction n; intros H Hi; [lia|]. cbn. pose proof (rsum_pos n f ltac:(auto)). pose proof (H n ltac:(lia)).
  destruct (Nat.eq_dec i n) as [->|]; [lra|]. pose proof (IHn ltac:(auto) ltac:(lia)). lra.
Qed.
Lemma rsum_le n f g : (forall i, (i < n)%nat -> f i <= g i)%R -> (rsum n f <= rsum n g)%R.
Proof. induction n; intros H; cbn; [lra|]. pose proof (IHn ltac:(auto)). pose proof (H n ltac:(lia)). lra. Qed.
Lemma rsum_const n c : rsum n (fun _ => c) = (INR n * c)%R.
Proof. induction n; [cbn; lra|]. cbn [rsum]. rewrite IHn, S_INR. lra. Qed.
Lemma rsum_div n f c : rsum n (fun i => f i / c)%R = (rsum n f / c)%R.
Proof. induction n; cbn; [unfold Rdiv; lra|]. rewrite IHn. unfold Rdiv. lra. Qed.
