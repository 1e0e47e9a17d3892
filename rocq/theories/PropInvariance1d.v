(** Properties C29 to C33: homogeneity, translation covariance, zero mean, l1 normalisation, and the global and
    absent averages of constructed Scattering1D objects. *)
From Coq Require Import String Reals ZArith QArith List Bool Lia Lra Permutation.
From Coquelicot Require Import Complex.
From Verif Require Import Base BaseProofs NdArray Backend Core1d Utils1d Utils1dProofs Frontend1d Spec1d Core1dProofs
  Frontend1dProofs NdProofs Rows1d FrontRows Factory1d FactoryProofs ComplexOps FilterBank1d FilterBank1dProofs Construct1d
  Shape1d PropFilters1d PropShapes1d Dft Conv1d Value1d Tabulated1d PropNumerics1d Invariance1d Norm1d Normal1d.
Import ListNotations.
Local Open Scope Z_scope.
Local Open Scope res_scope.

(** ** C29 *)
(** Every signal of the batch multiplied by the real number [c]. *)
Theorem C29_homogeneous : forall support p out s N batch x l (c : R),
  constructed support p out s N -> nd_wf x -> nd_shape x = batch ++ [Z.to_nat N] -> (0 < prod batch)%nat ->
  scattering np (with_out s "list") x = Ok (OutList l) ->
  exists l', scattering np (with_out s "list") (mk_nd Real (nd_shape x) (map (Cmult (RtoC c)) (nd_data x))) = Ok (OutList l') /\
    map p_n l' = map p_n l /\
    forall q q', In q l -> In q' l' -> p_n q' = p_n q ->
      exists L, nd_shape (p_coef q) = batch ++ [L] /\ nd_shape (p_coef q') = batch ++ [L] /\
      forall i, (i < prod batch)%nat ->
        signal L i (p_coef q') =
        map (Cmult (RtoC (if Nat.eqb (List.length (p_n q)) 0 then c else Rabs c))) (signal L i (p_coef q)).
Proof.
  intros support p out s N batch x l c Hc Hw Hsh Hb Hrun.
  set (y := mk_nd Real (nd_shape x) (map (Cmult (RtoC c)) (nd_data x))).
  assert (Hwy : nd_wf y) by (unfold nd_wf, y; cbn [nd_data nd_shape]; rewrite map_length; exact Hw).
  destruct (run_both _ _ _ _ _ batch x y l Hc Hw Hsh Hb Hrun Hwy eq_refl Hsh) as (l' & pl & pr & m & ls & a & Hr & Ek & Rd & F).
  exists l'. split; [exact Hr|]. split; [exact Ek|]. intros q q' Hq Hq' Eq.
  destruct (F q q' Hq Hq' Eq) as (Hk & S1 & S2 & V). cbv zeta in V. exists (final_len s (Z.to_nat N) pl ls a (p_n q)).
  split; [exact S1|]. split; [exact S2|]. intros i Hi. destruct (V i Hi) as (L1 & L2 & -> & ->).
  assert (Ey : signal (Z.to_nat N) i y = map (Cmult (RtoC c)) (signal (Z.to_nat N) i x)).
  { unfold signal, y. cbn [nd_data]. now rewrite skipn_map, firstn_map. }
  pose proof (rd_l _ _ _ _ _ _ _ Rd) as Hl. pose proof (rd_r _ _ _ _ _ _ _ Rd) as Hr'. pose proof (rd_adm _ _ _ _ _ _ _ Rd) as Ha.
  unfold final. rewrite Ey, pad_map by assumption.
  rewrite (value_scal _ _ _ _ _ _ _ Ha) by (try exact Hk; apply pad_row_length).
  assert (Ec : (match p_n q with [] => c | _ => Rabs c end) = (if Nat.eqb (List.length (p_n q)) 0 then c else Rabs c)) by now destruct (p_n q).
  rewrite Ec. destruct a.
  - apply slice_map.
  - cbn [map]. f_equal. rewrite !osum_at, map_length, <- csum_scal. apply csum_ext. intros t Ht. now apply at_map_C.
  - apply slice_map.
Qed.
Print Assumptions C29_homogeneous.

(** ** C30 *)
(** [U] is a padded batch, [U'] the same with every signal shifted circularly by [d] strides. *)
Theorem C30_translation : forall support p out s N ls pre (U U' : nd C) gen d,
  constructed support p out s N -> s_log2_stride s = Ok ls ->
  nd_wf U -> nd_shape U = pre ++ [padded_length s N] -> (0 < prod pre)%nat ->
  nd_wf U' -> nd_dtype U' = Real -> nd_shape U' = nd_shape U ->
  (forall i, (i < prod pre)%nat -> signal (padded_length s N) i U' = rotate (d * 2 ^ ls) (signal (padded_length s N) i U)) ->
  scattering1d np U (s_phi s) (psis_of s) ls true = Ok gen ->
  exists gen', scattering1d np U' (s_phi s) (psis_of s) ls true = Ok gen' /\ map p_n gen' = map p_n gen /\
   forall q q', In q gen -> In q' gen' -> p_n q' = p_n q ->
     exists L, Z.of_nat (padded_length s N) = Z.of_nat L * 2 ^ ls /\
       nd_shape (p_coef q) = pre ++ [L] /\ nd_shape (p_coef q') = pre ++ [L] /\
       forall i, (i < prod pre)%nat -> signal L i (p_coef q') = rotate d (signal L i (p_coef q)).
Proof.
  intros support p out s N ls pre U U' gen d (Hsup & H & EN & HN & HJ & Hmo) Els Hw Hsh Hb Hw' Hd' Hsh' Hrot Hg.
  destruct (core_adm _ _ _ _ _ _ _ _ _ Hsup H EN HN HJ Hmo Els Hsh Hb Hg) as (Hd & Ha).
  set (Np := padded_length s N) in *. pose proof (new_order _ _ _ _ H) as Emo.
  assert (Epsis : psis_of s = if s_max_order s =? 2 then [s_psi1 s; s_psi2 s] else [s_psi1 s]).
  { destruct (psis_of_cases s ltac:(lia)) as [[X1 X2]|[X1 X2]]; rewrite X2, X1; reflexivity. }
  rewrite Hsh in Hsh'.
  destruct (of_rows_intro U pre Np Hw Hsh) as (rows & EU & Hr). rewrite Hd in EU.
  destruct (of_rows_intro U' pre Np Hw' Hsh') as (rows' & EU' & Hr'). rewrite Hd' in EU'.
  destruct (scattering1d_rows complex_ops complex_ops_ok _ _ _ _ _ _ _ _ _ Hr Ha) as (g1 & E1 & F1).
  destruct (scattering1d_rows complex_ops complex_ops_ok _ _ _ _ _ _ _ _ _ Hr' Ha) as (g2 & E2 & F2).
  rewrite <- EU, <- Epsis in E1. rewrite <- EU', <- Epsis in E2.
  assert (g1 = gen) by congruence. subst g1. clear E1.
  exists g2. split; [exact E2|]. split.
  { rewrite Epsis in Hg, E2. destruct (s_max_order s =? 2); rewrite (scattering1d_keys np _ _ _ _ _ _ _ Hg), (scattering1d_keys np _ _ _ _ _ _ _ E2); reflexivity. }
  intros q q' Hq Hq' Eq. rewrite Forall_forall in F1, F2. destruct (F1 q Hq) as [C1 R1]. destruct (F2 q' Hq') as [C2 R2].
  rewrite Eq in C2, R2.
  change (resolution (s_psi1 s) (s_psi2 s) ls true (p_n q)) with ls in C1, R1, C2, R2. exists (Np / p2 ls)%nat.
  pose proof (adm_ls _ _ _ _ _ _ _ Ha) as Hls. destruct (adm_phi _ _ _ _ _ _ _ Ha eq_refl) as [[m Hm] _].
  split. { rewrite <- p2_Z by exact Hls. rewrite Hm at 1. pose proof (p2_pos ls). rewrite Hm, Nat.div_mul by lia. lia. }
  rewrite C1, C2. split; [reflexivity|]. split; [reflexivity|]. intros i Hi.
  rewrite !signal_of by assumption. specialize (Hrot i Hi). rewrite EU, EU', !signal_of in Hrot by assumption.
  rewrite (nth_indep (map _ rows') [] (value complex_ops (s_phi s) (s_psi1 s) (s_psi2 s) Np ls true (p_n q) [])) by (rewrite map_length; destruct Hr'; lia).
  rewrite (nth_indep (map _ rows) [] (value complex_ops (s_phi s) (s_psi1 s) (s_psi2 s) Np ls true (p_n q) [])) by (rewrite map_length; destruct Hr; lia).
  rewrite !map_nth, Hrot. rewrite <- p2_Z by exact Hls. rewrite (Z.mul_comm d).
  apply (value_rotate _ _ _ (s_max_order s =? 2) _ _ _ Ha); [reflexivity| |].
  - destruct Hr as [Hr1 Hr2]. rewrite Forall_forall in Hr2. apply Hr2. apply nth_In. lia.
  - eapply gen_valid; [lia|exact Hg|exact Hq].
Qed.
Print Assumptions C30_translation.

(** ** C31 *)
(** For a single sample the normaliser of every wavelet vanishes and the code divides by zero (C111). *)
Theorem C31_zero_mean : forall support p out s N,
  constructed support p out s N -> 2 <= N ->
  (forall f w, In f (s_psi1 s) \/ In f (s_psi2 s) -> nth_error (f_levels f) 0 = Some w ->
     (0 < List.length (nd_data w))%nat /\ at_ (nd_data w) 0 = RtoC 0) /\
  (* constant signals *)
  (forall batch x l q L i c t, nd_wf x -> nd_shape x = batch ++ [Z.to_nat N] ->
     scattering np (with_out s "list") x = Ok (OutList l) -> In q l -> p_n q <> [] -> nd_shape (p_coef q) = batch ++ [L] ->
     (i < prod batch)%nat -> (t < L)%nat ->
     (forall u, (u < Z.to_nat N)%nat -> at_ (signal (Z.to_nat N) i x) u = c) ->
     at_ (signal L i (p_coef q)) t = RtoC 0) /\
  (* adding a constant, which may depend on the signal *)
  (forall batch x y (c : nat -> R) l, nd_wf x -> nd_shape x = batch ++ [Z.to_nat N] -> (0 < prod batch)%nat ->
     scattering np (with_out s "list") x = Ok (OutList l) ->
     nd_wf y -> nd_dtype y = Real -> nd_shape y = nd_shape x ->
     (forall i u, (i < prod batch)%nat -> (u < Z.to_nat N)%nat ->
        at_ (signal (Z.to_nat N) i y) u = (RtoC (c i) + at_ (signal (Z.to_nat N) i x) u)%C) ->
     exists l', scattering np (with_out s "list") y = Ok (OutList l') /\ map p_n l' = map p_n l /\
       forall q q', In q l -> In q' l' -> p_n q' = p_n q ->
         exists L, nd_shape (p_coef q) = batch ++ [L] /\ nd_shape (p_coef q') = batch ++ [L] /\
         (p_n q <> [] -> forall i, (i < prod batch)%nat -> signal L i (p_coef q') = signal L i (p_coef q)) /\
         (p_n q = [] -> exists b, (0 < b)%R /\ forall i t, (i < prod batch)%nat -> (t < L)%nat ->
            at_ (signal L i (p_coef q')) t = (RtoC (c i * b) + at_ (signal L i (p_coef q)) t)%C)).
Proof.
  intros support p out s N Hc _. pose proof Hc as (Hsup & H & EN & HN & HJ & Hmo).
  pose proof (fun f Hf => proj1 (psi_zero_mean _ _ _ _ _ f Hc Hf)) as Z0.
  destruct (phi_l1 _ _ _ _ _ Hc) as (_ & _ & HNp & b & Eb & Hb0).
  assert (Z1 : forall f, In f (s_psi1 s) -> at_ (lev f 0) 0 = RtoC 0) by auto.
  split; [|split].
  - intros f w Hf Hw. destruct (psi_zero_mean _ _ _ _ _ f Hc Hf) as [E1 E2]. unfold lev in E1, E2.
    change (Z.to_nat 0) with 0%nat in *. rewrite Hw in *. split; [lia|exact E1].
  - intros batch x l q L i c t Hw Hsh Hrun Hq Hne HL Hi Ht Hconst.
    destruct (run_final _ _ _ _ _ _ _ _ Hsup H EN HN HJ Hmo Hw Hsh ltac:(lia) Hrun) as (Hd & pl & pr & m & ls & a & Rd & F).
    rewrite Forall_forall in F. destruct (F q Hq) as (Hk & Sh & Val). rewrite Sh in HL. apply app_inj_tail in HL. destruct HL as [_ HL].
    rewrite <- HL, Val by exact Hi. pose proof (rd_adm _ _ _ _ _ _ _ Rd) as Ha.
    assert (Ls : List.length (signal (Z.to_nat N) i x) = Z.to_nat N) by (eapply signal_length; eassumption).
    assert (Ep : pad_reflect_row complex_ops pl pr (Z.to_nat N) (signal (Z.to_nat N) i x) = repeat c (pl + Z.to_nat N + pr)).
    { apply list_ext; [now rewrite pad_row_length, repeat_length|]. rewrite pad_row_length. intros u Hu.
      rewrite at_pad, at_repeat_C by exact Hu. apply Hconst. apply (reflect_lt _ pl pr); [exact (rd_l _ _ _ _ _ _ _ Rd)|exact (rd_r _ _ _ _ _ _ _ Rd)|exact Hu]. }
    unfold final. rewrite Ep. destruct (value_of_const _ _ _ _ _ _ _ Ha c _ Hk Hne Z1) as [n ->].
    assert (Zr : forall k n, at_ (repeat (RtoC 0) n) k = RtoC 0).
    { intros k n0. destruct (Nat.lt_ge_cases k n0); [now apply at_repeat_C|]. apply at_over. now rewrite repeat_length. }
    destruct a.
    + rewrite <- HL in Ht. unfold final_len in Ht. unfold at_. rewrite nth_slice by exact Ht. apply Zr.
    + rewrite <- HL in Ht. cbn in Ht. assert (t = 0)%nat by lia. subst t. change (at_ ?l 0) with (nth 0 l (RtoC 0)). cbn [nth].
      rewrite osum_at. apply csum_0. intros; apply Zr.
    + rewrite <- HL in Ht. unfold final_len in Ht. unfold at_. rewrite nth_slice by exact Ht. apply Zr.
  - intros batch x y c l Hw Hsh Hb Hrun Hwy Hdy Hsy Hadd. rewrite Hsh in Hsy.
    destruct (run_both _ _ _ _ _ batch x y l Hc Hw Hsh Hb Hrun Hwy Hdy Hsy) as (l' & pl & pr & m & ls & a & Hr & Ek & Rd & F).
    exists l'. split; [exact Hr|]. split; [exact Ek|]. intros q q' Hq Hq' Eq.
    destruct (F q q' Hq Hq' Eq) as (Hk & S1 & S2 & V). cbv zeta in V. exists (final_len s (Z.to_nat N) pl ls a (p_n q)).
    split; [exact S1|]. split; [exact S2|].
    pose proof (rd_l _ _ _ _ _ _ _ Rd) as Hl. pose proof (rd_r _ _ _ _ _ _ _ Rd) as Hr'. pose proof (rd_adm _ _ _ _ _ _ _ Rd) as Ha.
    assert (Ey : forall i, (i < prod batch)%nat -> signal (Z.to_nat N) i y = map (Cplus (RtoC (c i))) (signal (Z.to_nat N) i x)).
    { intros i Hi. destruct (V i Hi) as (L1 & L2 & _). apply list_ext; [now rewrite map_length, L1, L2|]. rewrite L2. intros u Hu.
      rewrite at_map_C by now rewrite L1. now apply Hadd. }
    split.
    + intros Hne i Hi. destruct (V i Hi) as (L1 & L2 & V1 & V2). rewrite V1, V2. unfold final.
      rewrite Ey, pad_map by assumption.
      rewrite (value_add_const _ _ _ _ _ _ _ Ha) by (try assumption; apply pad_row_length). reflexivity.
    + intros E0. rewrite E0 in *.
      assert (VL : forall i, (i < prod batch)%nat -> List.length (value complex_ops (s_phi s) (s_psi1 s) (s_psi2 s) (pl + Z.to_nat N + pr) ls (is_local a) []
          (pad_reflect_row complex_ops pl pr (Z.to_nat N) (signal (Z.to_nat N) i x))) = ((pl + Z.to_nat N + pr) / p2 (res_of s ls a []))%nat).
      { intros i Hi. apply (value_length _ _ _ (s_max_order s =? 2)); [exact Ha|apply pad_row_length|exact Hk]. }
      assert (Ehi : forall k, Nat.divide (p2 k) (pl + Z.to_nat N + pr) -> 0 <= k <= Z.of_nat m ->
                 (hi (Z.to_nat N) pl k <= (pl + Z.to_nat N + pr) / p2 k)%nat).
      { intros k Hdk Hkk. apply (borders s (Z.to_nat N) pl pr m ls a Rd k Hkk Hdk). }
      assert (Hlev : List.length (lev (s_phi s) 0) = padded_length s N) by (apply (phi_l1 _ _ _ _ _ Hc)).
      assert (VC : forall i, (i < prod batch)%nat ->
         value complex_ops (s_phi s) (s_psi1 s) (s_psi2 s) (pl + Z.to_nat N + pr) ls (is_local a) []
           (pad_reflect_row complex_ops pl pr (Z.to_nat N) (signal (Z.to_nat N) i y)) =
         map (Cplus (RtoC (if is_local a then c i * b else c i))) (value complex_ops (s_phi s) (s_psi1 s) (s_psi2 s) (pl + Z.to_nat N + pr) ls (is_local a) []
           (pad_reflect_row complex_ops pl pr (Z.to_nat N) (signal (Z.to_nat N) i x)))).
      { intros i Hi. rewrite Ey by exact Hi. destruct (V i Hi) as (L1 & L2 & _). rewrite pad_map by assumption.
        apply (value_add_const0 _ _ _ _ _ _ _ Ha (c i) b); [apply pad_row_length|]. intros _. exact Eb. }
      pose proof (rd_keys _ _ _ _ _ _ _ Rd) as Hkeys. pose proof (adm_ls _ _ _ _ _ _ _ Ha) as Hls.
      destruct a; cbn [is_local] in *.
      * exists b. split; [exact Hb0|]. intros i t Hi Ht. destruct (V i Hi) as (L1 & L2 & V1 & V2). rewrite V1, V2. unfold final. cbn [is_local].
        rewrite VC by exact Hi. rewrite slice_map. apply at_map_C. rewrite slice_length, VL by exact Hi. unfold final_len in Ht.
        change (res_of s ls Local []) with ls in *. destruct (adm_phi _ _ _ _ _ _ _ Ha eq_refl) as [Dl _]. specialize (Ehi ls Dl ltac:(lia)). lia.
      * exists (INR (pl + Z.to_nat N + pr)). split; [apply lt_0_INR; pose proof (adm_N _ _ _ _ _ _ _ Ha); lia|].
        intros i t Hi Ht. destruct (V i Hi) as (L1 & L2 & V1 & V2). rewrite V1, V2. unfold final. cbn [is_local].
        cbn in Ht. assert (t = 0)%nat by lia. subst t. unfold at_. cbn [nth]. rewrite VC by exact Hi. rewrite !osum_at, map_length, VL by exact Hi.
        change (res_of s ls Global []) with 0. rewrite p2_0, Nat.div_1_r.
        rewrite (csum_ext _ _ (fun n => RtoC (c i) + at_ (value complex_ops (s_phi s) (s_psi1 s) (s_psi2 s) (pl + Z.to_nat N + pr) ls false []
           (pad_reflect_row complex_ops pl pr (Z.to_nat N) (signal (Z.to_nat N) i x))) n)%C).
        -- rewrite csum_plus. f_equal. rewrite (rsum_csum _ (fun _ => c i)), rsum_const. f_equal. ring.
        -- intros n Hn. apply at_map_C. rewrite VL by exact Hi. change (res_of s ls Global []) with 0. rewrite p2_0, Nat.div_1_r. exact Hn.
      * exists 1%R. split; [lra|]. intros i t Hi Ht. destruct (V i Hi) as (L1 & L2 & V1 & V2). rewrite V1, V2. unfold final. cbn [is_local].
        rewrite VC by exact Hi. rewrite slice_map, Rmult_1_r. apply at_map_C. rewrite slice_length, VL by exact Hi. unfold final_len in Ht.
        change (res_of s ls NoAvg []) with 0 in *. specialize (Ehi 0 ltac:(rewrite p2_0; exists (pl + Z.to_nat N + pr)%nat; lia) ltac:(lia)). lia.
Qed.
Print Assumptions C31_zero_mean.

(** ** C32 *)
Lemma padded_bound s N row B : (Z.to_nat (s_pad_left s) < N)%nat -> (Z.to_nat (s_pad_right s) < N)%nat -> List.length row = N ->
  (forall u, (u < N)%nat -> (Cmod (at_ row u) <= B)%R) ->
  List.length (padded s row) = (Z.to_nat (s_pad_left s) + N + Z.to_nat (s_pad_right s))%nat /\
  forall u, (u < List.length (padded s row))%nat -> (Cmod (at_ (padded s row) u) <= B)%R.
Proof.
  intros Hl Hr Hn HB. assert (E : List.length (padded s row) = (Z.to_nat (s_pad_left s) + N + Z.to_nat (s_pad_right s))%nat).
  { unfold padded. rewrite Hn. apply pad_row_length. }
  split; [exact E|]. rewrite E. intros u Hu. unfold padded. rewrite Hn, at_pad by exact Hu. apply HB.
  now apply (reflect_lt _ (Z.to_nat (s_pad_left s)) (Z.to_nat (s_pad_right s))).
Qed.
Lemma constructed_padding support p out s N : constructed support p out s N ->
  0 <= s_pad_left s < N /\ 0 <= s_pad_right s < N /\ Z.of_nat (padded_length s N) = s_pad_left s + N + s_pad_right s.
Proof.
  intros (Hsup & H & EN & HN & HJ & Hmo).
  apply new_inv in H. destruct H as (b & Qs & T & l2T & phi & psi1s & psi2s & Hb & _ & _ & _ & _ & _ & ->).
  destruct (build_inv _ _ _ Hb) as (st & T' & l' & r' & EN' & _ & _ & _ & Eb).
  assert (EbN : b_N b = N) by congruence.
  destruct (build_plan support p b Hsup Hb) as (_ & B1 & B2 & B3 & B4 & B5 & B6 & B7); [lia|]. rewrite EbN in *.
  unfold padded_length. cbn [s_pad_left s_pad_right]. lia.
Qed.

(** The l1 norm of an impulse response, written out. *)
Lemma l1_rsum h : l1 h = rsum (List.length h) (fun n => Cmod (at_ h n)).
Proof. unfold l1. now rewrite rsum_csum. Qed.

Theorem C32_l1_normalised : forall support p out s N,
  constructed support p out s N ->
  let Np := padded_length s N in
  (* the low-pass, and every wavelet unless there is a single sample *)
  rsum Np (fun n => Cmod (at_ (idft (lev (s_phi s) 0)) n)) = 1%R /\
  (2 <= N -> forall f, In f (s_psi1 s) \/ In f (s_psi2 s) -> rsum Np (fun n => Cmod (at_ (idft (lev f 0)) n)) = 1%R) /\
  (* a signal bounded by B *)
  forall row B, List.length row = Z.to_nat N -> (forall u, (u < Z.to_nat N)%nat -> (Cmod (at_ row u) <= B)%R) ->
    (forall t, (Cmod (cconv (padded s row) (idft (lev (s_phi s) 0)) t) <= B)%R) /\
    (2 <= N -> forall f t, In f (s_psi1 s) \/ In f (s_psi2 s) -> (Cmod (cconv (padded s row) (idft (lev f 0)) t) <= B)%R) /\
    (* the coefficients themselves *)
    (forall batch x l q L i t, nd_wf x -> nd_shape x = batch ++ [Z.to_nat N] -> scattering np (with_out s "list") x = Ok (OutList l) ->
       In q l -> nd_shape (p_coef q) = batch ++ [L] -> (i < prod batch)%nat -> (t < L)%nat -> signal (Z.to_nat N) i x = row ->
       (s_average s = Ok Local -> p_n q = [] -> (Cmod (at_ (signal L i (p_coef q)) t) <= B)%R) /\
       (s_average s = Ok NoAvg -> 2 <= N -> forall n1, p_n q = [n1] ->
          (Cmod (at_ (signal L i (p_coef q)) t) <= B)%R)).
Proof.
  intros support p out s N Hc Np. destruct (phi_l1 _ _ _ _ _ Hc) as (P1 & P2 & P3 & _).
  change (padded_length s N) with Np in P2, P3.
  assert (P4 : forall f, In f (s_psi1 s) \/ In f (s_psi2 s) -> List.length (lev f 0) = Np) by (intros f Hf; apply (psi_zero_mean _ _ _ _ _ f Hc Hf)).
  assert (P5 : 2 <= N -> forall f, In f (s_psi1 s) \/ In f (s_psi2 s) -> l1 (idft (lev f 0)) = 1%R).
  { intros H2 f Hf. apply (psi_l1 _ _ _ _ _ f Hc Hf). now apply (all_normalised _ _ _ _ _ Hc H2). }
  destruct (constructed_padding _ _ _ _ _ Hc) as (Q1 & Q2 & Q3).
  split; [rewrite l1_rsum, idft_length, P2 in P1; exact P1|]. split.
  { intros Hn f Hf. specialize (P5 Hn f Hf). rewrite l1_rsum, idft_length, P4 in P5 by exact Hf. exact P5. }
  intros row B Hrow HB.
  destruct (padded_bound s (Z.to_nat N) row B ltac:(lia) ltac:(lia) Hrow HB) as [Lp Bp].
  assert (LNp : List.length (padded s row) = Np) by (rewrite Lp; unfold Np; lia).
  assert (A1 : forall t, (Cmod (cconv (padded s row) (idft (lev (s_phi s) 0)) t) <= B)%R).
  { intros t. eapply Rle_trans; [apply (cconv_bound _ _ t B); [lia|rewrite idft_length; congruence|exact Bp]|]. rewrite P1. lra. }
  assert (A2 : 2 <= N -> forall f t, In f (s_psi1 s) \/ In f (s_psi2 s) -> (Cmod (cconv (padded s row) (idft (lev f 0)) t) <= B)%R).
  { intros Hn f t Hf. eapply Rle_trans; [apply (cconv_bound _ _ t B); [lia|rewrite idft_length, P4 by exact Hf; congruence|exact Bp]|]. rewrite P5 by assumption. lra. }
  split; [exact A1|]. split; [exact A2|]. clear Bp.
  intros batch x l q L i t Hw Hsh Hrun Hq HL Hi Ht Erow. split.
  - intros Ea E0.
    assert (exists ls, s_log2_stride s = Ok ls) as [ls Els].
    { destruct Hc as (Hsup & H & EN & HN & HJ & Hmo).
      destruct (run_final _ _ _ _ _ _ _ _ Hsup H EN HN HJ Hmo Hw Hsh ltac:(lia) Hrun) as (_ & pl & pr & m & ls & a & Rd & _).
      exists ls. exact (rd_stride _ _ _ _ _ _ _ Rd). }
    rewrite (C25_zeroth_order _ _ _ _ _ _ _ _ _ _ _ _ _ Hc Ea Els Hw Hsh Hrun Hq E0 Hi HL Ht). rewrite Erow.
    rewrite Cmod_R. eapply Rle_trans; [|apply A1]. eapply Rle_trans; [|apply Rmax_Cmod]. apply Rmax_l.
  - intros Ea Hn n1 En. destruct Hc as (Hsup & H & EN & HN & HJ & Hmo).
    destruct (run_final _ _ _ _ _ _ _ _ Hsup H EN HN HJ Hmo Hw Hsh ltac:(lia) Hrun) as (Hd & pl & pr & m & ls & a & Rd & F).
    rewrite (rd_avg _ _ _ _ _ _ _ Rd) in Ea. injection Ea as ->. pose proof (rd_adm _ _ _ _ _ _ _ Rd) as Ha. cbn [is_local] in Ha.
    rewrite Forall_forall in F. destruct (F q Hq) as (Hk & Sh & Val). rewrite Sh in HL. apply app_inj_tail in HL. destruct HL as [_ HL].
    rewrite <- HL, Val by exact Hi. unfold final. cbn [is_local]. rewrite <- HL in Ht. unfold final_len in Ht.
    unfold at_. rewrite nth_slice by exact Ht. rewrite Erow, En in *.
    set (prow := pad_reflect_row complex_ops pl pr (Z.to_nat N) row).
    assert (Ep : padded s row = prow).
    { unfold padded, prow. rewrite Hrow, (rd_left _ _ _ _ _ _ _ Rd), (rd_right _ _ _ _ _ _ _ Rd), !Nat2Z.id. reflexivity. }
    rewrite Ep in *.
    assert (Hpl : List.length prow = (pl + Z.to_nat N + pr)%nat) by apply pad_row_length.
    assert (exists f1, nth_error (s_psi1 s) n1 = Some f1) as [f1 Ef1] by (inversion Hk; subst; eauto).
    rewrite (value_plain _ _ _ _ _ _ _ Ha prow Hpl _ eq_refl Hk f1 Ef1).
    change (nth ?n ?l (RtoC 0)) with (at_ l n).
    destruct (Nat.lt_ge_cases (lo pl (res_of s ls NoAvg [n1]) + t) (List.length prow / p2 (f_j f1))) as [Hlt|Hge].
    + unfold sampled_envelope. rewrite at_map_seq by exact Hlt. rewrite Cmod_R, Rabs_right by (apply Rle_ge, Cmod_ge_0).
      apply A2; [exact Hn|left; now apply nth_error_In in Ef1].
    + rewrite at_over by (rewrite sampled_envelope_length; exact Hge). rewrite Cmod_0.
      eapply Rle_trans; [apply Cmod_ge_0|]. apply (HB 0%nat). lia.
Qed.
Print Assumptions C32_l1_normalised.

(** ** C33 *)
Lemma hi_lo_multiples n l k : 0 <= k -> (hi n l k - lo l k)%nat = n_multiples k (Z.of_nat l) (Z.of_nat n).
Proof.
  intros Hk. pose proof (pow2_pos k Hk) as Hp. unfold n_multiples.
  pose proof (count_multiples (2 ^ k) (Z.of_nat l) (Z.of_nat n) Hp ltac:(lia)) as E. unfold hi, lo. rewrite Nat2Z.inj_add.
  assert (0 <= cdiv (Z.of_nat l) (2 ^ k)).
  { unfold cdiv. pose proof (Z.div_le_upper_bound (- Z.of_nat l) (2 ^ k) 0 Hp). lia. }
  lia.
Qed.

(** T="global": [U] is the padded batch, [gen] the unaveraged paths of the transform on it. *)
Theorem C33_global : forall support p out s N ls batch x l U,
  constructed support p out s N -> s_average s = Ok Global -> s_log2_stride s = Ok ls ->
  nd_wf x -> nd_shape x = batch ++ [Z.to_nat N] -> (0 < prod batch)%nat ->
  scattering np (with_out s "list") x = Ok (OutList l) ->
  nd_wf U -> nd_dtype U = Real -> nd_shape U = [prod batch; 1; padded_length s N]%nat ->
  (forall i, (i < prod batch)%nat -> signal (padded_length s N) i U = padded s (signal (Z.to_nat N) i x)) ->
  exists gen, scattering1d np U (s_phi s) (psis_of s) ls false = Ok gen /\
   forall q, In q l -> nd_shape (p_coef q) = batch ++ [1%nat] /\
     exists g n, In g gen /\ p_n g = p_n q /\ nd_shape (p_coef g) = [prod batch; 1; n]%nat /\
     forall i, (i < prod batch)%nat -> at_ (signal 1 i (p_coef q)) 0 = csum n (at_ (signal n i (p_coef g))).
Proof.
  intros support p out s N ls batch x l U (Hsup & H & EN & HN & HJ & Hmo) Ea Els Hw Hsh Hb Hrun HwU HdU HsU HU.
  destruct (run_final _ _ _ _ _ _ _ _ Hsup H EN HN HJ Hmo Hw Hsh Hb Hrun) as (Hd & pl & pr & m & ls' & a & Rd & F).
  rewrite (rd_avg _ _ _ _ _ _ _ Rd) in Ea. injection Ea as ->. rewrite (rd_stride _ _ _ _ _ _ _ Rd) in Els. injection Els as ->.
  pose proof (rd_adm _ _ _ _ _ _ _ Rd) as Ha. cbn [is_local] in Ha.
  assert (ENp : padded_length s N = (pl + Z.to_nat N + pr)%nat).
  { unfold padded_length. rewrite (rd_left _ _ _ _ _ _ _ Rd), (rd_right _ _ _ _ _ _ _ Rd). lia. }
  rewrite ENp in *. set (Np := (pl + Z.to_nat N + pr)%nat) in *.
  pose proof (new_order _ _ _ _ H) as Emo.
  assert (Epsis : psis_of s = if s_max_order s =? 2 then [s_psi1 s; s_psi2 s] else [s_psi1 s]).
  { destruct (psis_of_cases s ltac:(lia)) as [[X1 X2]|[X1 X2]]; rewrite X2, X1; reflexivity. }
  change [prod batch; 1; Np]%nat with ([prod batch; 1] ++ [Np])%nat in HsU.
  destruct (of_rows_intro U [prod batch; 1]%nat Np HwU HsU) as (rows & EU & Hr). rewrite HdU in EU.
  destruct (scattering1d_rows complex_ops complex_ops_ok _ _ _ _ _ _ _ _ _ Hr Ha) as (gen & Eg & Fg).
  rewrite <- EU, <- Epsis in Eg. exists gen. split; [exact Eg|]. intros q Hq.
  rewrite Forall_forall in F. destruct (F q Hq) as (Hk & Sh & Val). change (final_len s (Z.to_nat N) pl ls Global (p_n q)) with 1%nat in *.
  split; [exact Sh|].
  assert (Hin : In (p_n q) (map p_n gen)).
  { apply scattering_list_inv in Hrun. destruct Hrun as (S & HS & ->). rewrite paths_with_out in HS.
    apply (Permutation_in _ (map_sort_paths S)) in Hq.
    pose proof (paths_keys_perm np s x S ltac:(lia) HS) as P1.
    assert (P2 : Permutation (map p_n gen) (expected_keys (Z.to_nat (s_max_order s)) (j1s s) (j2s s))).
    { destruct (psis_of_cases s ltac:(lia)) as [[E1 E2]|[E1 E2]]; rewrite E2 in Eg; rewrite E1;
        rewrite (scattering1d_keys np _ _ _ _ _ _ _ Eg); cbn [nth_error option_map].
      - rewrite gen_keys_none. reflexivity.
      - apply gen_keys_perm. }
    eapply Permutation_in; [apply Permutation_sym; exact P2|]. eapply Permutation_in; [exact P1|]. now apply in_map. }
  apply in_map_iff in Hin. destruct Hin as (g & Eg1 & Hg). rewrite Forall_forall in Fg. destruct (Fg g Hg) as [Cg Rg].
  rewrite Eg1 in Cg, Rg. exists g, (Np / p2 (resolution (s_psi1 s) (s_psi2 s) ls false (p_n q)))%nat.
  split; [exact Hg|]. split; [exact Eg1|]. rewrite Cg. split; [reflexivity|]. intros i Hi.
  assert (Hi' : (i < prod [prod batch; 1])%nat) by (cbn; lia).
  rewrite Val by exact Hi. unfold final. cbn [is_local]. unfold at_ at 1. cbn [nth].
  rewrite signal_of by exact Rg. specialize (HU i Hi). rewrite EU, signal_of in HU by exact Hr.
  assert (Ls : List.length (signal (Z.to_nat N) i x) = Z.to_nat N) by (eapply signal_length; eassumption).
  assert (Ep : padded s (signal (Z.to_nat N) i x) = pad_reflect_row complex_ops pl pr (Z.to_nat N) (signal (Z.to_nat N) i x)).
  { unfold padded. rewrite Ls, (rd_left _ _ _ _ _ _ _ Rd), (rd_right _ _ _ _ _ _ _ Rd), !Nat2Z.id. reflexivity. }
  rewrite <- Ep, <- HU.
  rewrite (nth_indep (map _ rows) [] (value complex_ops (s_phi s) (s_psi1 s) (s_psi2 s) Np ls false (p_n q) [])) by (rewrite map_length; destruct Hr; lia).
  rewrite map_nth, osum_at. f_equal. apply (value_length _ _ _ (s_max_order s =? 2)); [exact Ha| |exact Hk].
  destruct Hr as [Hr1 Hr2]. rewrite Forall_forall in Hr2. apply Hr2, nth_In. lia.
Qed.
Print Assumptions C33_global.

(** T=0. *)
Theorem C33_no_averaging : forall support p out s N batch x l q i,
  constructed support p out s N -> s_average s = Ok NoAvg ->
  nd_wf x -> nd_shape x = batch ++ [Z.to_nat N] -> scattering np (with_out s "list") x = Ok (OutList l) ->
  In q l -> (i < prod batch)%nat ->
  let xp := padded s (signal (Z.to_nat N) i x) in
  (p_n q = [] /\ nd_shape (p_coef q) = nd_shape x /\ signal (Z.to_nat N) i (p_coef q) = signal (Z.to_nat N) i x) \/
  (exists n1 f1 L, p_n q = [n1] /\ nth_error (s_psi1 s) n1 = Some f1 /\
     L = n_multiples (f_j f1) (s_pad_left s) N /\ nd_shape (p_coef q) = batch ++ [L] /\
     forall t, (t < L)%nat -> at_ (signal L i (p_coef q)) t =
       RtoC (Cmod (cconv xp (idft (lev f1 0)) (2 ^ f_j f1 * (first_kept s (f_j f1) + Z.of_nat t))))) \/
  (exists n1 n2 f1 f2 L U1, p_n q = [n1; n2] /\ nth_error (s_psi1 s) n1 = Some f1 /\ nth_error (s_psi2 s) n2 = Some f2 /\
     L = n_multiples (f_j f2) (s_pad_left s) N /\ nd_shape (p_coef q) = batch ++ [L] /\
     Z.of_nat (List.length U1) * 2 ^ f_j f1 = Z.of_nat (padded_length s N) /\
     (forall u, (u < List.length U1)%nat -> at_ U1 u = RtoC (Cmod (cconv xp (idft (lev f1 0)) (2 ^ f_j f1 * Z.of_nat u)))) /\
     forall t, (t < L)%nat -> at_ (signal L i (p_coef q)) t =
       RtoC (Cmod (cconv U1 (idft (lev f2 (f_j f1))) (2 ^ (f_j f2 - f_j f1) * (first_kept s (f_j f2) + Z.of_nat t))))).
Proof.
  intros support p out s N batch x l q i (Hsup & H & EN & HN & HJ & Hmo) Ea Hw Hsh Hrun Hq Hi. cbv zeta.
  destruct (run_final _ _ _ _ _ _ _ _ Hsup H EN HN HJ Hmo Hw Hsh ltac:(lia) Hrun) as (Hd & pl & pr & m & ls & a & Rd & F).
  rewrite (rd_avg _ _ _ _ _ _ _ Rd) in Ea. injection Ea as ->. pose proof (rd_adm _ _ _ _ _ _ _ Rd) as Ha. cbn [is_local] in Ha.
  rewrite Forall_forall in F. destruct (F q Hq) as (Hk & Sh & Val). clear F Hq Hrun. specialize (Val i Hi).
  assert (Ls : List.length (signal (Z.to_nat N) i x) = Z.to_nat N) by (eapply signal_length; eassumption).
  assert (Ep : padded s (signal (Z.to_nat N) i x) = pad_reflect_row complex_ops pl pr (Z.to_nat N) (signal (Z.to_nat N) i x)).
  { unfold padded. rewrite Ls, (rd_left _ _ _ _ _ _ _ Rd), (rd_right _ _ _ _ _ _ _ Rd), !Nat2Z.id. reflexivity. }
  unfold final in Val. cbn [is_local] in Val. rewrite <- Ep in Val. rewrite (rd_left _ _ _ _ _ _ _ Rd).
  set (xp := padded s (signal (Z.to_nat N) i x)) in *.
  assert (Lxp : List.length xp = (pl + Z.to_nat N + pr)%nat) by (rewrite Ep; apply pad_row_length).
  assert (ENp : padded_length s N = (pl + Z.to_nat N + pr)%nat).
  { unfold padded_length. rewrite (rd_left _ _ _ _ _ _ _ Rd), (rd_right _ _ _ _ _ _ _ Rd). lia. }
  rewrite ENp. set (Np := (pl + Z.to_nat N + pr)%nat) in *.
  pose proof (value_plain _ _ _ _ _ _ _ Ha xp Lxp _ eq_refl Hk) as V.
  pose proof (rd_keys _ _ _ _ _ _ _ Rd) as Hkeys. cbn [is_local] in Hkeys.
  assert (Efk : forall k, 0 <= k -> first_kept s k = Z.of_nat (lo pl k)).
  { intros k Hk0. unfold first_kept, lo. rewrite (rd_left _ _ _ _ _ _ _ Rd). rewrite Z2Nat.id; [reflexivity|].
    unfold cdiv. pose proof (Z.pow_pos_nonneg 2 k ltac:(lia) Hk0). pose proof (Z.div_le_upper_bound (- Z.of_nat pl) (2 ^ k) 0). lia. }
  assert (EN' : Z.of_nat (Z.to_nat N) = N) by lia.
  assert (Exp : forall u, (u < Z.to_nat N)%nat -> at_ xp (pl + u) = at_ (signal (Z.to_nat N) i x) u).
  { intros u Hu. rewrite Ep, at_pad by (unfold Np; lia). f_equal. unfold reflect_index.
    destruct (Z.ltb_spec (Z.of_nat (pl + u) - Z.of_nat pl) 0); [lia|]. destruct (Z.ltb_spec (Z.of_nat (pl + u) - Z.of_nat pl) (Z.of_nat (Z.to_nat N))); lia. }
  clear Ep. clearbody xp. clear EN. revert Hk Sh Val V. generalize (p_n q). intros key Hk Sh Val V.
  destruct Hk as [|n1 f1 E1|n1 n2 f1 f2 H2 E1 E2 Hj].
  - left. unfold final_len in Sh, Val. change (res_of s ls NoAvg []) with 0 in *.
    destruct (borders s (Z.to_nat N) pl pr m ls NoAvg Rd 0 ltac:(lia) ltac:(rewrite p2_0; exists Np; lia)) as (_ & _ & B1 & B2).
    assert (El : lo pl 0 = pl) by (unfold lo, cdiv; rewrite Z.pow_0_r, Z.div_1_r; lia).
    assert (Eh : hi (Z.to_nat N) pl 0 = (pl + Z.to_nat N)%nat) by (unfold hi, cdiv; rewrite Z.pow_0_r, Z.div_1_r; lia).
    rewrite El, Eh in *. replace (pl + Z.to_nat N - pl)%nat with (Z.to_nat N) in * by lia.
    split; [reflexivity|]. split; [congruence|]. rewrite Val, V. apply list_ext.
    + rewrite slice_length, Lxp. unfold Np. lia.
    + rewrite slice_length, Lxp. intros u Hu. unfold at_ at 1. rewrite nth_slice by (unfold Np in Hu; lia).
      apply Exp. unfold Np in Hu. lia.
  - right; left. exists n1, f1, (n_multiples (f_j f1) (Z.of_nat pl) N). split; [reflexivity|]. split; [exact E1|]. split; [reflexivity|].
    specialize (V f1 E1). destruct (env1_spec _ _ _ _ _ _ _ Ha xp Lxp n1 f1 E1) as (_ & _ & K1 & D1 & _). cbn [kk] in K1, D1. unfold kk in K1, D1.
    assert (Er : res_of s ls NoAvg [n1] = f_j f1) by (unfold res_of, resolution; cbn [is_local]; now rewrite E1).
    unfold final_len in Sh, Val. rewrite Er in Sh, Val. rewrite hi_lo_multiples, EN' in Sh by exact K1.
    split; [exact Sh|]. intros t Ht.
    destruct (borders s (Z.to_nat N) pl pr m ls NoAvg Rd (f_j f1)) as (_ & _ & B1 & B2); [pose proof (Hkeys f1 (or_introl (nth_error_In _ _ E1))); lia|exact D1|].
    rewrite hi_lo_multiples, EN' in Val by exact K1. rewrite Val, V. unfold at_ at 1.
    assert (Hlen : (hi (Z.to_nat N) pl (f_j f1) - lo pl (f_j f1))%nat = n_multiples (f_j f1) (Z.of_nat pl) N) by (rewrite hi_lo_multiples, EN' by exact K1; reflexivity).
    rewrite nth_slice by (rewrite Hlen; exact Ht). change (nth ?n ?l (RtoC 0)) with (at_ l n).
    unfold sampled_envelope. rewrite at_map_seq by (rewrite Lxp; fold Np in B2; lia).
    f_equal. f_equal. f_equal. rewrite Efk by exact K1. rewrite Nat2Z.inj_mul, p2_Z by exact K1. lia.
  - right; right. specialize (V f1 f2 E1 E2).
    destruct (env2_spec _ _ _ _ _ _ _ Ha xp Lxp n1 n2 f1 f2 H2 E1 E2 Hj) as (_ & _ & K12 & D2 & _). unfold kk in K12, D2.
    destruct (env1_spec _ _ _ _ _ _ _ Ha xp Lxp n1 f1 E1) as (_ & _ & K1 & D1 & _). unfold kk in K1, D1.
    exists n1, n2, f1, f2, (n_multiples (f_j f2) (Z.of_nat pl) N), (sampled_envelope xp (lev f1 0) (p2 (f_j f1))).
    split; [reflexivity|]. split; [exact E1|]. split; [exact E2|]. split; [reflexivity|].
    assert (Er : res_of s ls NoAvg [n1; n2] = f_j f2) by (unfold res_of, resolution; cbn [is_local]; now rewrite E2).
    unfold final_len in Sh, Val. rewrite Er in Sh, Val. rewrite hi_lo_multiples, EN' in Sh by lia.
    split; [exact Sh|]. rewrite sampled_envelope_length, Lxp. split.
    { rewrite <- p2_Z by exact K1. destruct D1 as [k Hk]. pose proof (p2_pos (f_j f1)). unfold Np in *. rewrite Hk, Nat.div_mul by lia. lia. }
    split. { intros u Hu. unfold sampled_envelope. rewrite at_map_seq by now rewrite Lxp. f_equal. f_equal. f_equal. rewrite Nat2Z.inj_mul, p2_Z by exact K1. reflexivity. }
    intros t Ht.
    destruct (borders s (Z.to_nat N) pl pr m ls NoAvg Rd (f_j f2)) as (_ & _ & B1 & B2); [pose proof (Hkeys f2 (or_intror (nth_error_In _ _ E2))); lia|exact D2|].
    rewrite hi_lo_multiples, EN' in Val by lia. rewrite Val, V. unfold at_ at 1.
    assert (Hlen : (hi (Z.to_nat N) pl (f_j f2) - lo pl (f_j f2))%nat = n_multiples (f_j f2) (Z.of_nat pl) N) by (rewrite hi_lo_multiples, EN' by lia; reflexivity).
    rewrite nth_slice by (rewrite Hlen; exact Ht). change (nth ?n ?l (RtoC 0)) with (at_ l n).
    destruct (p2_divide (f_j f1) (f_j f2) Np ltac:(lia) D2) as (_ & _ & Q12).
    unfold sampled_envelope at 1. rewrite at_map_seq by (rewrite sampled_envelope_length, Lxp, Q12; fold Np in B2; lia).
    f_equal. f_equal. f_equal. rewrite Efk by lia. rewrite Nat2Z.inj_mul, p2_Z by lia. lia.
Qed.
Print Assumptions C33_no_averaging.

(** ** Instances *)
(** J = 4, Q = 1, N = 100 with the three averages: an object, its runs, and non-zero normalisers. *)
Theorem concrete_objects : forall T a, In (T, a) [(TNone, Local); (TGlobal, Global); (TNum 0, NoAvg)] -> exists s,
  constructed (fun _ _ => 30) (mk_params 4 100 (QInt 1) T SNone 2) "list" s 100 /\
  s_average s = Ok a /\ s_log2_stride s = Ok 4 /\ padded_length s 100 = 256%nat /\
  map f_j (s_psi1 s) = [0; 0; 0; 1; 2] /\ map f_j (s_psi2 s) = [0; 0; 0; 1; 2] /\
  (forall f, In f (s_psi1 s) \/ In f (s_psi2 s) -> normalised 256 f) /\
  forall b x, nd_wf x -> nd_dtype x = Real -> nd_shape x = [b; 100]%nat ->
    exists l, scattering np (with_out s "list") x = Ok (OutList l) /\
      map p_n l = [[]; [0]; [1]; [2]; [3]; [4]; [0; 3]; [0; 4]; [1; 3]; [1; 4]; [2; 3]; [2; 4]; [3; 4]]%nat.
Proof.
  intros T a HTa. set (p := mk_params 4 100 (QInt 1) T SNone 2).
  assert (H30 : forall (n : Z) (t : Q), 0 <= 30) by (intros; lia).
  assert (EN : N_input_of (p_shape p) = Ok 100) by reflexivity.
  assert (HJ : 0 <= p_J p) by (cbn; lia). assert (Hmo : 1 <= p_max_order p <= 2) by (cbn; lia).
  assert (EQ : Q_of (p_Q p) = Ok [QI 1; QI 1]) by reflexivity.
  assert (ET : T_of T 4 100 = Ok (Qpower 2 4)) by (destruct HTa as [E|[E|[E|[]]]]; injection E as <- <-; reflexivity).
  assert (Ea0 : average_of T 4 100 = Ok a) by (destruct HTa as [E|[E|[E|[]]]]; injection E as <- <-; reflexivity).
  assert (El2 : log2_T_of T 4 100 = Ok 4) by (unfold log2_T_of; rewrite ET; reflexivity).
  destruct (build_total (fun _ _ => 30) p 100 SNone (Qpower 2 4)) as [b Hb]; try assumption; try reflexivity; try lia.
  destruct (build_inv _ _ _ Hb) as (st & T' & l' & r & EN' & EO & ET' & _ & Eb).
  assert (EbN : b_N b = 100) by congruence. rewrite EbN in *.
  cbn in EO. injection EO as <-.
  assert (ENp : b_Npad b = 256) by (rewrite Eb; reflexivity).
  destruct (new_total (fun _ _ => 30) p "list" b 1 1 4) as [s Hs]; try assumption; try lia.
  { rewrite EbN. exact El2. } { rewrite ENp. cbn. lia. }
  exists s. assert (Hc : constructed (fun _ _ => 30) p "list" s 100) by (unfold constructed; repeat split; (assumption || lia)).
  split; [exact Hc|].
  pose proof Hs as Hs'. apply new_inv in Hs'. destruct Hs' as (b' & Qs & T'' & l & phi & psi1s & psi2s & Hb' & _ & _ & _ & _ & _ & Es).
  assert (b' = b) by congruence. subst b'.
  assert (Ea : s_average s = Ok a) by (rewrite Es, EbN; exact Ea0).
  assert (Els : s_log2_stride s = Ok 4) by (rewrite Es, Eb; cbn [b_stride b_N s_log2_stride log2_stride_of]; exact El2).
  assert (EL : padded_length s 100 = 256%nat).
  { destruct (build_plan (fun _ _ => 30) p b H30 Hb) as (_ & _ & _ & _ & B4 & _); [lia|].
    unfold padded_length. rewrite Es. cbn [s_pad_left s_pad_right]. rewrite EbN in B4. rewrite B4, ENp. reflexivity. }
  destruct (new_banks _ _ _ _ Hs _ _ EQ) as (P1 & P2 & J1 & J2). change (p_J p) with 4 in P1, P2.
  pose proof (anden_unique _ _ _ _ _ _ (anden_list_ok 4 1 ltac:(lia) ltac:(lia)) (anden_Q1 4 ltac:(lia))) as E.
  change (seq 0 (S (Z.to_nat 4))) with [0; 1; 2; 3; 4]%nat in E.
  assert (G : forall fs : list (Core1d.filter (nd C) R), map params_of fs = anden_list 4 1 sigma0 r_psi ->
     Forall (fun f => f_j f = scale (f_xi f) (f_sigma f)) fs -> map f_j fs = [0; 0; 0; 1; 2] /\ forall f, In f fs -> normalised 256 f).
  { intros fs Hp Hj. rewrite E in Hp. split.
    - transitivity (map (fun a => scale (fst a) (snd a)) (map params_of fs)).
      + clear - Hj. induction Hj as [|f fs Ef _ IH]; [reflexivity|]. cbn [map params_of fst snd]. now rewrite Ef, IH.
      + rewrite Hp, map_map. cbn [map fst snd]. now rewrite !scale_Q1.
    - intros f Hf. apply (in_map params_of) in Hf. rewrite Hp in Hf. apply in_map_iff in Hf. destruct Hf as (k & Ek & Hk).
      unfold params_of in Ek. injection Ek as Ex Es'. unfold normalised. rewrite <- Ex, <- Es'. apply Rgt_not_eq.
      pose proof rho_1 as R1. assert (Hk' : (1 <= 2 ^ k <= 16)%R) by (cbn in Hk; decompose [or] Hk; subst; cbn; lra || contradiction).
      assert (I0 : (/ 16 <= / 2 ^ k <= 1)%R) by (split; [apply Rinv_le_contravar; lra|rewrite <- Rinv_1; apply Rinv_le_contravar; lra]).
      unfold Rdiv. set (z := (/ 2 ^ k)%R) in *.
      apply wavelet_nonzero; [lia|nra|nra|nra|]. replace (INR 256) with 256%R by (rewrite INR_IZR_INZ; reflexivity). nra. }
  destruct (G _ P1 J1) as [F1 N1]. destruct (G _ P2 J2) as [F2 N2].
  split; [exact Ea|]. split; [exact Els|]. split; [exact EL|]. split; [exact F1|]. split; [exact F2|].
  split; [intros f [Hf|Hf]; auto|].
  intros n x Hw Hd Hsh.
  destruct (new_ready complex_ops formulas1d formulas1d_sane (fun _ _ => 30) p "list" s 100 1 1 4 a 4) as (pl & pr & Rd);
    try assumption; try lia; try reflexivity; try (intros; lia).
  destruct (of_rows_intro x [n] 100 Hw Hsh) as (rows & Ex & Hr). rewrite Hd in Ex.
  destruct (paths_rows complex_ops complex_ops_ok s _ _ _ _ _ _ Rd [n] rows Hr) as (S & ES & _). change (Z.to_nat 100) with 100%nat in ES. rewrite <- Ex in ES.
  exists (sort_paths S). split; [eapply (list_run s a [n] 100); eassumption|].
  pose proof (new_order _ _ _ _ Hs) as Emo.
  rewrite (paths_sorted_keys np s x S) by (try exact ES; rewrite Emo; exact Hmo).
  unfold j1s, j2s. rewrite F1, F2, Emo. reflexivity.
Qed.
Print Assumptions concrete_objects.

(** Two signals of 100 samples. *)
Definition two_signals : nd C := mk_nd Real [2; 100]%nat (map (fun i => RtoC (INR i)) (seq 0 200)).

(** C29 with c = -2, C31 (also the constant-signal part, on an all-ones batch) and C32 for local averaging: the
    hypotheses hold, with paths of all three orders. *)
Example C29_C31_C32_instance : exists s l l1,
  constructed (fun _ _ => 30) (mk_params 4 100 (QInt 1) TNone SNone 2) "list" s 100 /\ s_average s = Ok Local /\
  nd_wf two_signals /\ (forall f, In f (s_psi1 s) \/ In f (s_psi2 s) -> normalised (padded_length s 100) f) /\
  scattering np (with_out s "list") two_signals = Ok (OutList l) /\ In [] (map p_n l) /\ In [0]%nat (map p_n l) /\ In [0; 4]%nat (map p_n l) /\
  scattering np (with_out s "list") (mk_nd Real [2; 100]%nat (repeat (RtoC 1) 200)) = Ok (OutList l1) /\ In [0; 4]%nat (map p_n l1) /\
  exists l', scattering np (with_out s "list") (mk_nd Real [2; 100]%nat (map (Cmult (RtoC (-2))) (nd_data two_signals))) = Ok (OutList l').
Proof.
  destruct (concrete_objects TNone Local) as (s & Hc & Ea & Els & EL & F1 & F2 & Hn & Run); [cbn; tauto|].
  destruct (Run 2%nat two_signals eq_refl eq_refl eq_refl) as (l & Hl & Hk).
  destruct (Run 2%nat (mk_nd Real [2; 100]%nat (repeat (RtoC 1) 200)) eq_refl eq_refl eq_refl) as (l1 & Hl1 & Hk1).
  exists s, l, l1. split; [exact Hc|]. split; [exact Ea|]. split; [reflexivity|]. rewrite EL. split; [exact Hn|]. split; [exact Hl|].
  rewrite Hk, Hk1. split; [cbn; tauto|]. split; [cbn; tauto|]. split; [cbn; tauto|]. split; [exact Hl1|]. split; [cbn; tauto|].
  destruct (C29_homogeneous _ _ _ _ _ [2]%nat two_signals l (-2) Hc eq_refl eq_refl ltac:(cbn; lia) Hl) as (l' & Hl' & _).
  exists l'. exact Hl'.
Qed.

(** C30: a padded batch of 3 signals of 256 samples, shifted by 2 strides of 16 samples. *)
Example C30_instance : exists s U U' gen,
  constructed (fun _ _ => 30) (mk_params 4 100 (QInt 1) TNone SNone 2) "list" s 100 /\ s_log2_stride s = Ok 4 /\
  padded_length s 100 = 256%nat /\ nd_wf U /\ nd_wf U' /\ nd_dtype U' = Real /\ nd_shape U = [3; 256]%nat /\ nd_shape U' = nd_shape U /\
  (forall i, (i < 3)%nat -> signal 256 i U' = rotate (2 * 2 ^ 4) (signal 256 i U)) /\
  scattering1d np U (s_phi s) (psis_of s) 4 true = Ok gen /\ In [0; 4]%nat (map p_n gen).
Proof.
  destruct (concrete_objects TNone Local) as (s & Hc & Ea & Els & EL & F1 & F2 & Hn & Run); [cbn; tauto|].
  destruct (Run 2%nat two_signals eq_refl eq_refl eq_refl) as (l & Hl & Hk). pose proof Hc as (H30 & Hs & EN & HN & HJ & Hmo).
  destruct (run_final _ _ _ _ _ [2]%nat two_signals l H30 Hs EN HN HJ Hmo eq_refl eq_refl ltac:(cbn; lia) Hl) as (_ & pl & pr & m & ls & a & Rd & _).
  rewrite (rd_avg _ _ _ _ _ _ _ Rd) in Ea. injection Ea as ->. rewrite (rd_stride _ _ _ _ _ _ _ Rd) in Els. injection Els as ->.
  pose proof (rd_adm _ _ _ _ _ _ _ Rd) as Ha. cbn [is_local] in Ha.
  assert (ENp : (pl + Z.to_nat 100 + pr = 256)%nat).
  { unfold padded_length in EL. rewrite (rd_left _ _ _ _ _ _ _ Rd), (rd_right _ _ _ _ _ _ _ Rd) in EL. lia. }
  rewrite ENp in Ha.
  set (rows := map (fun i => map (fun t => RtoC (INR (i + t))) (seq 0 256)) [0; 1; 2]%nat).
  set (rows' := map (rotate (2 * 2 ^ 4)) rows).
  assert (Hr : rows_ok [3]%nat 256 rows) by (split; [reflexivity|]; repeat constructor).
  assert (Hr' : rows_ok [3]%nat 256 rows') by (split; [reflexivity|]; repeat constructor; apply rotate_length).
  exists s, (of_rows Real [3]%nat 256 rows), (of_rows Real [3]%nat 256 rows').
  destruct (scattering1d_rows complex_ops complex_ops_ok _ _ _ _ _ _ _ _ _ Hr Ha) as (gen & Eg & _). exists gen.
  split; [exact Hc|]. split; [exact (rd_stride _ _ _ _ _ _ _ Rd)|]. split; [exact EL|].
  split; [now apply of_rows_wf|]. split; [now apply of_rows_wf|]. split; [reflexivity|]. split; [reflexivity|]. split; [reflexivity|].
  split. { intros i Hi. rewrite !signal_of by assumption. unfold rows'. rewrite (nth_indep (map _ rows) [] (rotate (2 * 2 ^ 4) [])) by exact Hi. apply map_nth. }
  pose proof (new_order _ _ _ _ Hs) as Emo. cbn in Emo. rewrite Emo in Eg. cbn [Z.eqb Pos.eqb] in Eg.
  assert (Eps : psis_of s = [s_psi1 s; s_psi2 s]) by (destruct (psis_of_cases s ltac:(lia)) as [[X1 X2]|[X1 X2]]; [lia|exact X2]).
  rewrite Eps. split; [exact Eg|]. rewrite (scattering1d_keys np _ _ _ _ _ _ _ Eg). cbn [nth_error option_map]. rewrite F1, F2. cbn. tauto.
Qed.

(** C33 (and the unaveraged part of C32): both averages, with a padded batch for the global one. *)
Example C33_instance : exists s s' l l' U,
  constructed (fun _ _ => 30) (mk_params 4 100 (QInt 1) TGlobal SNone 2) "list" s 100 /\ s_average s = Ok Global /\ s_log2_stride s = Ok 4 /\
  scattering np (with_out s "list") two_signals = Ok (OutList l) /\ In [0; 4]%nat (map p_n l) /\
  nd_wf U /\ nd_dtype U = Real /\ nd_shape U = [2; 1; padded_length s 100]%nat /\
  (forall i, (i < 2)%nat -> signal (padded_length s 100) i U = padded s (signal 100 i two_signals)) /\
  constructed (fun _ _ => 30) (mk_params 4 100 (QInt 1) (TNum 0) SNone 2) "list" s' 100 /\ s_average s' = Ok NoAvg /\
  (forall f, In f (s_psi1 s') \/ In f (s_psi2 s') -> normalised (padded_length s' 100) f) /\
  scattering np (with_out s' "list") two_signals = Ok (OutList l') /\
  In [] (map p_n l') /\ In [0]%nat (map p_n l') /\ In [0; 4]%nat (map p_n l').
Proof.
  destruct (concrete_objects TGlobal Global) as (s & Hc & Ea & Els & EL & F1 & F2 & Hn & Run); [cbn; tauto|].
  destruct (concrete_objects (TNum 0) NoAvg) as (s' & Hc' & Ea' & Els' & EL' & F1' & F2' & Hn' & Run'); [cbn; tauto|].
  destruct (Run 2%nat two_signals eq_refl eq_refl eq_refl) as (l & Hl & Hk).
  destruct (Run' 2%nat two_signals eq_refl eq_refl eq_refl) as (l' & Hl' & Hk').
  destruct (constructed_padding _ _ _ _ _ Hc) as (Q1 & Q2 & Q3).
  set (rows := [padded s (signal 100 0 two_signals); padded s (signal 100 1 two_signals)]).
  assert (Lp : forall i, (i < 2)%nat -> List.length (padded s (signal 100 i two_signals)) = 256%nat).
  { intros i Hi. unfold padded. rewrite pad_row_length. rewrite (signal_length 100 i two_signals [2]%nat); [|reflexivity|reflexivity|cbn; lia]. lia. }
  assert (Hr : rows_ok [2; 1]%nat 256 rows).
  { split; [reflexivity|]. constructor; [apply Lp; lia|]. constructor; [apply Lp; lia|constructor]. }
  exists s, s', l, l', (of_rows Real [2; 1]%nat 256 rows).
  split; [exact Hc|]. split; [exact Ea|]. split; [exact Els|]. split; [exact Hl|]. rewrite Hk. split; [cbn; tauto|].
  split; [now apply of_rows_wf|]. split; [reflexivity|]. rewrite EL, EL'. split; [reflexivity|].
  split. { intros i Hi. rewrite signal_of by exact Hr. destruct i as [|[|i]]; [reflexivity|reflexivity|lia]. }
  split; [exact Hc'|]. split; [exact Ea'|]. split; [exact Hn'|]. split; [exact Hl'|]. rewrite Hk'. cbn. tauto.
Qed.
