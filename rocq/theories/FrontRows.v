(** Evaluation of the whole Scattering1D call with the NumPy backend, row by row. *)
From Coq Require Import String ZArith List Bool Arith Lia Permutation.
From Verif Require Import Base BaseProofs NdArray Backend Core1d Utils1d Utils1dProofs Frontend1d
  Core1dProofs Frontend1dProofs NdProofs Rows1d.
Import ListNotations.
Local Open Scope nat_scope.

Definition is_local (a : avg) : bool := match a with Local => true | _ => false end.

Section Front.
Context {K P : Type} (o : ops K) (Ho : ops_ok o).
Notation np := (numpy_backend o).
Notation scat := (scat1d (nd K) P).

(** What the constructor leaves for an input of length [n]: paddings [l], [r] legal for [n], border
    dictionaries with keys 0..[m], filters tabulated at the resolutions that will be looked up. *)
Record ready (s : scat) (n l r m : nat) (ls : Z) (a : avg) : Prop := {
  rd_order : (1 <= s_max_order s <= 2)%Z;
  rd_left : s_pad_left s = Z.of_nat l;
  rd_right : s_pad_right s = Z.of_nat r;
  rd_l : l < n;
  rd_r : r < n;
  rd_stride : s_log2_stride s = Ok ls;
  rd_avg : s_average s = Ok a;
  rd_adm : adm (s_phi s) (s_psi1 s) (s_psi2 s) (s_max_order s =? 2)%Z (l + n + r) ls (is_local a);
  rd_start : s_ind_start s = border_list m (Z.of_nat l);
  rd_end : s_ind_end s = border_list m (Z.of_nat (l + n));
  rd_keys : if is_local a then (ls <= Z.of_nat m)%Z
            else forall f, In f (s_psi1 s) \/ In f (s_psi2 s) -> (f_j f <= Z.of_nat m)%Z;
  rd_over : is_local a = false -> s_oversampling s = OInt 0
}.

Section Run.
Variables (s : scat) (n l r m : nat) (ls : Z) (a : avg).
Hypothesis (Hs : ready s n l r m ls a).
Notation N := (l + n + r).

Definition res_of (key : list nat) : Z := resolution (s_psi1 s) (s_psi2 s) ls (is_local a) key.
(** Bounds of the slice kept at a resolution: ceil(l / 2^res), ceil((l+n) / 2^res). *)
Definition lo (k : Z) : nat := Z.to_nat (cdiv (Z.of_nat l) (2 ^ k)).
Definition hi (k : Z) : nat := Z.to_nat (cdiv (Z.of_nat (l + n)) (2 ^ k)).

(** The final coefficient of a path as a function of one input signal. *)
Definition final (key : list nat) (row : list K) : list K :=
  let y := value o (s_phi s) (s_psi1 s) (s_psi2 s) N ls (is_local a) key (pad_reflect_row o l r n row) in
  match a with
  | Global => [osum o y]
  | _ => slice (lo (res_of key)) (hi (res_of key)) y
  end.
Definition final_len (key : list nat) : nat :=
  match a with Global => 1 | _ => hi (res_of key) - lo (res_of key) end.

(** Facts about the resolution of a path of the generator. *)
Lemma path_resolution U gen p :
  scattering1d np U (s_phi s) (psis_of s) ls (is_local a) = Ok gen -> In p gen ->
  (0 <= res_of (p_n p) <= Z.of_nat m)%Z /\ Nat.divide (p2 (res_of (p_n p))) N /\
  (is_local a = false ->
     if Nat.ltb 0 (List.length (p_n p)) then py_index (p_j p) (-1) = Ok (res_of (p_n p))
     else res_of (p_n p) = 0%Z) /\
  (is_local a = true -> res_of (p_n p) = ls).
Proof.
  intros Hg Hp. pose proof (rd_adm _ _ _ _ _ _ _ Hs) as Ha. pose proof (rd_keys _ _ _ _ _ _ _ Hs) as Hk.
  pose proof (rd_order _ _ _ _ _ _ _ Hs) as Hm.
  unfold res_of, resolution. destruct (is_local a) eqn:E.
  - pose proof (adm_ls _ _ _ _ _ _ _ Ha). destruct (adm_phi _ _ _ _ _ _ _ Ha eq_refl) as [Hd _].
    repeat split; try lia; try assumption.
  - destruct (psis_of_cases s Hm) as [[E1 E2]|[E1 E2]]; rewrite E2 in Hg;
    destruct (scattering1d_scales np U (s_phi s) _ _ ls _ gen p Hg Hp)
      as [(K1 & K2)|[(n1 & f1 & K1 & K2 & K3)|(n1 & n2 & f1 & f2 & psi2 & K1 & K2 & K3 & K4 & K5 & K6)]].
    all: rewrite K1.
    1,4: cbn [List.length Nat.ltb Nat.leb]; repeat split; try lia; try discriminate; rewrite p2_0; exists N; lia.
    1,3: rewrite K2, K3; cbn [List.length Nat.ltb Nat.leb];
         destruct (adm_psi1 _ _ _ _ _ _ _ Ha f1 (nth_error_In _ _ K2)) as (G1 & _ & G2 & _);
         specialize (G2 eq_refl); specialize (Hk f1 (or_introl (nth_error_In _ _ K2)));
         repeat split; try lia; try assumption; discriminate.
    + discriminate.
    + cbn in K2. injection K2; intros <-. rewrite K4, K5. cbn [List.length Nat.ltb Nat.leb].
      assert (Htwo : (s_max_order s =? 2)%Z = true) by (rewrite E1; reflexivity).
      destruct (adm_psi1 _ _ _ _ _ _ _ Ha f1 (nth_error_In _ _ K3)) as (G1 & _ & _ & _).
      destruct (adm_psi2 _ _ _ _ _ _ _ Ha Htwo f1 f2 (nth_error_In _ _ K3) (nth_error_In _ _ K4) K6) as (_ & G2 & _).
      specialize (G2 eq_refl). specialize (Hk f2 (or_intror (nth_error_In _ _ K4))).
      repeat split; try lia; try assumption; discriminate.
Qed.

Lemma p2_Z k : (0 <= k)%Z -> Z.of_nat (p2 k) = (2 ^ k)%Z.
Proof. intros H. unfold p2. rewrite Nat2Z.inj_pow, Z2Nat.id by assumption. reflexivity. Qed.

Lemma borders k : (0 <= k <= Z.of_nat m)%Z -> Nat.divide (p2 k) N ->
  dict_get (s_ind_start s) k = Ok (Z.of_nat (lo k)) /\ dict_get (s_ind_end s) k = Ok (Z.of_nat (hi k)) /\
  lo k <= hi k <= N / p2 k.
Proof.
  intros Hk Hd. rewrite (rd_start _ _ _ _ _ _ _ Hs), (rd_end _ _ _ _ _ _ _ Hs).
  rewrite !dict_get_border by assumption.
  assert (E : forall i, iter_half (Z.to_nat k) (Z.of_nat i) = cdiv (Z.of_nat i) (2 ^ k)).
  { intros i. rewrite iter_half_ceil, Z2Nat.id by lia. reflexivity. }
  rewrite !E.
  assert (Hp : (0 < 2 ^ k)%Z) by (apply pow2_pos; lia).
  assert (Hnn : forall i, (0 <= cdiv (Z.of_nat i) (2 ^ k))%Z).
  { intros i. unfold cdiv. pose proof (Z.div_le_upper_bound (- Z.of_nat i) (2 ^ k) 0 Hp). lia. }
  assert (Hle : (cdiv (Z.of_nat l) (2 ^ k) <= cdiv (Z.of_nat (l + n)) (2 ^ k))%Z).
  { unfold cdiv. pose proof (Z.div_le_mono (- Z.of_nat (l + n)) (- Z.of_nat l) (2 ^ k) Hp). lia. }
  assert (Hup : (cdiv (Z.of_nat (l + n)) (2 ^ k) <= Z.of_nat N / 2 ^ k)%Z).
  { apply cdiv_le_div; [exact Hp| |lia]. destruct Hd as [q Hq]. exists (Z.of_nat q). rewrite Hq, Nat2Z.inj_mul, p2_Z by lia. reflexivity. }
  unfold lo, hi. rewrite !Z2Nat.id by apply Hnn.
  split; [reflexivity|]. split; [reflexivity|]. split; [lia|].
  rewrite <- (p2_Z k), <- Nat2Z.inj_div in Hup by lia. rewrite <- (p2_Z k) by lia. lia.
Qed.

Theorem paths_rows batch rows : rows_ok batch n rows ->
  exists S, paths np s (of_rows Real batch n rows) = Ok S /\
    Forall (fun p => p_coef p = of_rows Real batch (final_len (p_n p)) (map (final (p_n p)) rows) /\
                     rows_ok batch (final_len (p_n p)) (map (final (p_n p)) rows)) S.
Proof.
  intros Hr. pose proof (rd_adm _ _ _ _ _ _ _ Hs) as Ha. pose proof (rd_order _ _ _ _ _ _ _ Hs) as Hm.
  pose proof (rd_l _ _ _ _ _ _ _ Hs) as Hl. pose proof (rd_r _ _ _ _ _ _ _ Hs) as Hr'.
  unfold paths. change (be_shape np (of_rows Real batch n rows)) with (batch ++ [n]).
  rewrite split_last_snoc. cbn [bind]. cbn [numpy_backend be_reshape_input].
  rewrite np_reshape_input_of by lia. cbn [bind numpy_backend be_pad].
  assert (Hr1 : rows_ok [prod batch; 1] n rows) by (eapply rows_ok_pre; [|exact Hr]; cbn; lia).
  rewrite (rd_left _ _ _ _ _ _ _ Hs), (rd_right _ _ _ _ _ _ _ Hs).
  rewrite np_pad_of by assumption. cbn [bind].
  rewrite (rd_stride _ _ _ _ _ _ _ Hs), (rd_avg _ _ _ _ _ _ _ Hs). cbn [bind].
  change (match a with Local => true | _ => false end) with (is_local a).
  assert (Hr2 : rows_ok [prod batch; 1] N (map (pad_reflect_row o l r n) rows)).
  { eapply rows_ok_map; [|exact Hr1]. intros; apply pad_row_length. }
  assert (Epsis : psis_of s = if (s_max_order s =? 2)%Z then [s_psi1 s; s_psi2 s] else [s_psi1 s]).
  { destruct (psis_of_cases s Hm) as [[E1 E2]|[E1 E2]]; rewrite E2, E1; reflexivity. }
  destruct (scattering1d_rows o Ho _ _ _ _ _ _ _ _ _ Hr2 Ha) as (gen & Eg & Fg).
  rewrite <- Epsis in Eg. rewrite Eg. cbn [bind].
  assert (Step : forall p, In p gen -> exists q, finish_path np s a batch p = Ok q /\ p_n q = p_n p /\
     p_coef q = of_rows Real batch (final_len (p_n p)) (map (final (p_n p)) rows) /\
     rows_ok batch (final_len (p_n p)) (map (final (p_n p)) rows)).
  { intros p Hp. rewrite Forall_forall in Fg. destruct (Fg p Hp) as [Ec Rc].
    destruct (path_resolution _ gen p Eg Hp) as (B1 & B2 & B3 & B4).
    fold (res_of (p_n p)) in Ec, Rc.
    destruct (borders _ B1 B2) as (D1 & D2 & D3). rewrite map_map in Ec, Rc.
    set (f := fun row => value o (s_phi s) (s_psi1 s) (s_psi2 s) N ls (is_local a) (p_n p) (pad_reflect_row o l r n row)) in *.
    assert (Eres : (match a with
          | Local => s_log2_stride s
          | _ => if Nat.ltb 0 (List.length (p_n p)) then
                   j <- py_index (p_j p) (-1) ;;
                   match s_oversampling s with OInt k => Ok (Z.max (j - k) 0) | _ => Err TypeError end
                 else Ok 0%Z end)%res = Ok (res_of (p_n p))).
    { destruct (is_local a) eqn:Ea.
      - rewrite (B4 eq_refl). destruct a; try discriminate. exact (rd_stride _ _ _ _ _ _ _ Hs).
      - specialize (B3 eq_refl). pose proof (rd_over _ _ _ _ _ _ _ Hs Ea) as Ho'.
        destruct a; try discriminate; destruct (Nat.ltb 0 _); rewrite ?B3; cbn [bind]; rewrite ?Ho'; f_equal; lia. }
    unfold finish_path. rewrite Eres. cbn [bind].
    destruct a eqn:Ea.
    - rewrite D1, D2. cbn [bind be_unpad numpy_backend]. rewrite Ec.
      rewrite np_unpad_of by (try assumption; lia). cbn [bind numpy_backend be_reshape_output].
      rewrite !Nat2Z.id. rewrite !Nat.min_l by lia. rewrite map_map.
      assert (R : rows_ok batch (hi (res_of (p_n p)) - lo (res_of (p_n p))) (map (fun x => slice (lo (res_of (p_n p))) (hi (res_of (p_n p))) (f x)) rows)).
      { destruct Rc as [Rc1 Rc2]. split; [rewrite map_length; apply Hr|]. rewrite Forall_map in *.
        eapply Forall_impl; [|exact Rc2]. intros row Erow. cbn beta in Erow |- *. rewrite slice_length, Erow. lia. }
      rewrite np_reshape_output_of by (cbn; lia). cbn [bind]. eexists. split; [reflexivity|]. cbn [p_n p_coef].
      unfold final_len, final. rewrite Ea. split; [reflexivity|]. split; [reflexivity|exact R].
    - cbn [bind be_average_global numpy_backend]. rewrite Ec.
      rewrite np_average_of by assumption. cbn [bind numpy_backend be_reshape_output]. rewrite map_map.
      rewrite np_reshape_output_of by (cbn; lia). cbn [bind]. eexists. split; [reflexivity|]. cbn [p_n p_coef].
      unfold final_len, final. rewrite Ea. split; [reflexivity|]. split; [reflexivity|].
      eapply rows_ok_map; [|exact Hr]. intros; reflexivity.
    - rewrite D1, D2. cbn [bind be_unpad numpy_backend]. rewrite Ec.
      rewrite np_unpad_of by (try assumption; lia). cbn [bind numpy_backend be_reshape_output].
      rewrite !Nat2Z.id. rewrite !Nat.min_l by lia. rewrite map_map.
      assert (R : rows_ok batch (hi (res_of (p_n p)) - lo (res_of (p_n p))) (map (fun x => slice (lo (res_of (p_n p))) (hi (res_of (p_n p))) (f x)) rows)).
      { destruct Rc as [Rc1 Rc2]. split; [rewrite map_length; apply Hr|]. rewrite Forall_map in *.
        eapply Forall_impl; [|exact Rc2]. intros row Erow. cbn beta in Erow |- *. rewrite slice_length, Erow. lia. }
      rewrite np_reshape_output_of by (cbn; lia). cbn [bind]. eexists. split; [reflexivity|]. cbn [p_n p_coef].
      unfold final_len, final. rewrite Ea. split; [reflexivity|]. split; [reflexivity|exact R]. }
  destruct (mapM_total (finish_path np s a batch) gen) as [S ES].
  - intros p Hp. destruct (Step p Hp) as (q & Eq & _). eauto.
  - exists S. split; [exact ES|]. apply mapM_ok in ES. apply Forall_forall. intros q Hq.
    destruct (Forall2_In_r _ _ _ _ ES Hq) as (p & Hp & Ep). destruct (Step p Hp) as (q' & Eq & En & Ec & Rc).
    rewrite Ep in Eq. injection Eq; intros <-. rewrite En. auto.
Qed.
End Run.
End Front.
