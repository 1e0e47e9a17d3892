(** Evaluation of a whole TimeFrequencyScattering call with the NumPy backend: what every returned path holds, as a
    function of each signal of the batch. *)
From Coq Require Import String ZArith List Bool Arith Lia.
From Verif Require Import Base BaseProofs NdArray Backend Core1d Utils1d Utils1dProofs Frontend1d NdProofs Rows1d FrontRows Mats
  Jtfs JtfsFront JtfsProofs JtfsRows JtfsFmt.
Import ListNotations.
Local Open Scope nat_scope.

Lemma restride_same lsf a_fr q : q_j (restride lsf a_fr q) = q_j q /\ q_n (restride lsf a_fr q) = q_n q /\
  q_n1_max (restride lsf a_fr q) = q_n1_max q /\ q_spin (restride lsf a_fr q) = q_spin q /\ q_n_fr (restride lsf a_fr q) = q_n_fr q.
Proof. unfold restride. destruct a_fr; [destruct (_ =? _)%Z|destruct (_ =? _)%Z|]; repeat split; reflexivity. Qed.

Section Full.
Context {K P : Type} (o : ops K) (Ho : ops_ok o) (sgn : P -> Z).
Notation filter := (filter (nd K) P).
Notation np := (numpy_backend o).
Notation z := (o_zero o).

(** What the constructor leaves for an input of length [n], with paddings [l] and [r], border dictionaries of keys
    0..[mx], and [Nfr] padded frequency bins. *)
Record jready (t : jtfs (nd K) P) (n l r mx : nat) (ls : Z) (a : avg) (Nfr : nat) (lsf : Z) (a_fr : avg) : Prop := {
  jr_left : s_pad_left (t_base t) = Z.of_nat l; jr_right : s_pad_right (t_base t) = Z.of_nat r;
  jr_l : l < n; jr_r : r < n;
  jr_stride : s_log2_stride (t_base t) = Ok ls; jr_avg : s_average (t_base t) = Ok a;
  jr_stride_fr : t_log2_stride_fr t = Ok lsf; jr_avg_fr : t_average_fr t = Ok a_fr;
  jr_start : s_ind_start (t_base t) = border_list mx (Z.of_nat l);
  jr_end : s_ind_end (t_base t) = border_list mx (Z.of_nat (l + n));
  jr_time : jadm_time (s_phi (t_base t)) (s_psi1 (t_base t)) (s_psi2 (t_base t)) (l + n + r) ls (is_local_avg a);
  jr_fr : jadm_fr (s_psi1 (t_base t)) (t_phi_fr t) (t_psis_fr t) Nfr lsf (is_local_avg a_fr);
  jr_keys : (ls <= Z.of_nat mx)%Z /\ forall f, In f (s_psi2 (t_base t)) -> (f_j f <= Z.of_nat mx)%Z;
  jr_psi2 : a = Local -> forall f, In f (s_psi2 (t_base t)) -> 0 < smaller (s_psi1 (t_base t)) (f_j f) ->
            level_ok (s_phi (t_base t)) (f_j f) ((l + n + r) / p2 (f_j f));
  jr_aligned : a_fr = Local -> forall psi, In psi (t_psis_fr t) -> sgn (f_xi psi) <> 0%Z -> Nat.divide (p2 lsf) Nfr /\
            Z.min (f_j psi) (f_j (t_phi_fr t)) = Z.min (f_j psi) lsf /\
            level_ok (t_phi_fr t) (Z.min (f_j psi) lsf) (Nfr / p2 (Z.min (f_j psi) lsf))
}.

Section Run.
Variables (t : jtfs (nd K) P) (n l r mx : nat) (ls : Z) (a : avg) (Nfr : nat) (lsf : Z) (a_fr : avg).
Hypothesis (Hr : jready t n l r mx ls a Nfr lsf a_fr).
Notation b := (t_base t).
Notation N := (l + n + r).
Notation al := (is_local_avg a).
Notation alf := (is_local_avg a_fr).

(** One path before formatting: its labels, the numbers of rows and columns, and the matrix computed from a padded
    signal. *)
Record entry := mk_entry { e_q : jpath unit; e_m : nat; e_n : nat; e_G : list K -> matrix K }.
Definition entry_of (wj : list Z) (wn : list nat) (m c : nat) (G : list K -> matrix K) (npsi : nat * filter) : entry :=
  mk_entry (slot sgn wj wn (Z.of_nat m) npsi) (Nfr / p2 (kf lsf alf (snd npsi))) c
    (fun row => freq o Nfr lsf alf (snd npsi) m c (G row)).
Definition entries : list entry :=
  map (entry_of [-1]%Z [] (List.length (s_psi1 b)) (N / p2 ls) (time1 o (s_phi b) (s_psi1 b) N ls al)) (enumerate (nonneg sgn (t_psis_fr t))) ++
  flat_map (fun np2 => if Nat.ltb 0 (smaller (s_psi1 b) (f_j (snd np2)))
    then map (entry_of [-1; f_j (snd np2)]%Z [fst np2] (smaller (s_psi1 b) (f_j (snd np2))) (N / p2 (f_j (snd np2)))
                (time2 o (s_psi1 b) N ls al (snd np2)))
             (enumerate (t_psis_fr t))
    else []) (enumerate (s_psi2 b)).

(** The stride between the labels of a path. *)
Definition estride (q : jpath unit) : Z :=
  match a_fr with
  | NoAvg => 2 ^ q_j_fr q
  | Local => if (q_spin q =? 0)%Z then 2 ^ q_j_fr q else 2 ^ lsf
  | Global => if (q_spin q =? 0)%Z then 2 ^ q_j_fr q else q_n1_max q
  end.

(** Facts about entries. *)
Definition is_entry (e : entry) : Prop :=
  exists wj wn m c G nfr psi, e = entry_of wj wn m c G (nfr, psi) /\ In psi (t_psis_fr t) /\ 0 < m <= Nfr /\ 0 < c /\
    (forall row, mat_ok m c (G row)) /\
    ((wj = [-1]%Z /\ wn = [] /\ c = N / p2 ls) \/
     exists n2 f2, In f2 (s_psi2 b) /\ 0 < smaller (s_psi1 b) (f_j f2) /\ wj = [-1; f_j f2]%Z /\ wn = [n2] /\ c = N / p2 (f_j f2) /\ (0 <= f_j f2 <= ls)%Z).

Lemma entries_ok e : In e entries -> is_entry e.
Proof.
  pose proof (jr_time _ _ _ _ _ _ _ _ _ _ Hr) as Ht. pose proof (jr_fr _ _ _ _ _ _ _ _ _ _ Hr) as Hf.
  assert (HN : 0 < N) by (pose proof (jr_l _ _ _ _ _ _ _ _ _ _ Hr); lia).
  assert (H0 : 0 < List.length (s_psi1 b)).
  { pose proof (jt_ne _ _ _ _ _ _ Ht) as E. destruct (s_psi1 b); [congruence|cbn; lia]. }
  pose proof (jf_room _ _ _ _ _ _ Hf) as Hroom.
  unfold entries. intros H. apply in_app_iff in H as [H|H].
  - apply in_map_iff in H as ([nfr psi] & <- & Hin). apply In_enumerate, nth_error_In in Hin. apply filter_In in Hin as [Hin _].
    exists [-1]%Z, [], (List.length (s_psi1 b)), (N / p2 ls), (time1 o (s_phi b) (s_psi1 b) N ls al), nfr, psi.
    split; [reflexivity|]. split; [exact Hin|]. split; [lia|]. split; [apply div_p2_pos; [exact HN|apply (jt_div _ _ _ _ _ _ Ht)]|].
    split; [intros row; now apply (time1_ok o Ho) with (psi2s := s_psi2 b)|]. left. auto.
  - apply in_flat_map in H as ([n2 f2] & H2 & H). apply In_enumerate, nth_error_In in H2. cbn [fst snd] in H.
    destruct (Nat.ltb_spec 0 (smaller (s_psi1 b) (f_j f2))) as [Hs|]; [|destruct H].
    apply in_map_iff in H as ([nfr psi] & <- & Hin). apply In_enumerate, nth_error_In in Hin.
    assert (exists f1, In f1 (s_psi1 b) /\ (f_j f1 < f_j f2)%Z) as (f1 & H1 & Hj).
    { unfold smaller in Hs. destruct (List.filter _ (s_psi1 b)) as [|f1 ?] eqn:E; [cbn in Hs; lia|].
      assert (I : In f1 (List.filter (fun f => f_j f <? f_j f2)%Z (s_psi1 b))) by (rewrite E; now left).
      apply filter_In in I as [I1 I2]. exists f1. split; [exact I1|now apply Z.ltb_lt]. }
    destruct (jt_psi2 _ _ _ _ _ _ Ht f1 f2 H1 H2 Hj) as (_ & Hle). destruct (jt_psi1 _ _ _ _ _ _ Ht f1 H1) as (Hj0 & _).
    exists [-1; f_j f2]%Z, [n2], (smaller (s_psi1 b) (f_j f2)), (N / p2 (f_j f2)), (time2 o (s_psi1 b) N ls al f2), nfr, psi.
    split; [reflexivity|]. split; [exact Hin|].
    pose proof (smaller_le (s_psi1 b) (f_j f2)). split; [lia|].
    split; [apply div_p2_pos; [exact HN|]; apply (p2_divide (f_j f2) ls N); [lia|apply (jt_div _ _ _ _ _ _ Ht)]|].
    split; [intros row; now apply (time2_ok o Ho) with (phi := s_phi b) (psi2s := s_psi2 b)|].
    right. exists n2, f2. repeat split; try assumption; lia.
Qed.

Lemma p2_pow j : (0 <= j)%Z -> (2 ^ j)%Z = Z.of_nat (p2 j).
Proof. intros H. unfold p2. rewrite Nat2Z.inj_pow, Z2Nat.id by exact H. reflexivity. Qed.
Lemma pow2_PInt j : (0 <= j)%Z -> pow2 j = PInt (2 ^ j).
Proof. intros H. unfold pow2. destruct (Z.ltb_spec j 0); [lia|reflexivity]. Qed.

Lemma kf_range psi : In psi (t_psis_fr t) -> (0 <= kf lsf alf psi <= f_j psi)%Z.
Proof.
  intros H. pose proof (jr_fr _ _ _ _ _ _ _ _ _ _ Hr) as Hf. destruct (jf_psi _ _ _ _ _ _ Hf psi H) as (P1 & _).
  pose proof (jf_lsf _ _ _ _ _ _ Hf). unfold kf. destruct alf; lia.
Qed.

Lemma entries_fmt e : In e entries ->
  fmt_ok (s_phi b) ls a (t_phi_fr t) lsf a_fr (e_q e) (estride (e_q e)) (e_m e) (e_n e).
Proof.
  intros He. pose proof (jr_time _ _ _ _ _ _ _ _ _ _ Hr) as Ht. pose proof (jr_fr _ _ _ _ _ _ _ _ _ _ Hr) as Hf.
  destruct (entries_ok e He) as (wj & wn & m & c & G & nfr & psi & -> & Hpsi & Hm & Hc & HG & Hcase).
  destruct (jf_psi _ _ _ _ _ _ Hf psi Hpsi) as (P1 & P2 & P3).
  unfold entry_of. cbn [e_q e_m e_n fst snd].
  constructor.
  - apply div_p2_pos; [lia|exact P3].
  - exact Hc.
  - intros Ea Es. destruct Hcase as [(_ & -> & _)|(n2 & f2 & H2 & Hs & -> & -> & -> & Hj)]; [discriminate Es|].
    unfold jlast. cbn [slot q_j List.last]. split; [discriminate|]. split; [exact Hj|].
    split; [now apply (jr_psi2 _ _ _ _ _ _ _ _ _ _ Hr Ea)|]. apply (p2_divide (f_j f2) ls N); [lia|apply (jt_div _ _ _ _ _ _ Ht)].
  - intros Ea Es. unfold kphi. cbn [slot q_spin q_j_fr fst snd] in *. destruct (jr_aligned _ _ _ _ _ _ _ _ _ _ Hr Ea psi Hpsi Es) as (D & A3 & A4).
    assert (E : kf lsf alf psi = Z.min (f_j psi) lsf) by (unfold kf; now rewrite Ea). rewrite E, A3.
    pose proof (jf_lsf _ _ _ _ _ _ Hf). split; [lia|]. split; [exact A4|]. apply (p2_divide (Z.min (f_j psi) lsf) lsf Nfr); [lia|exact D].
  - unfold restride, estride. cbn [slot q_spin q_j_fr q_n1_max fst snd]. pose proof (jf_lsf _ _ _ _ _ _ Hf).
    destruct a_fr; [destruct (_ =? _)%Z|destruct (_ =? _)%Z|]; cbn [set_stride q_n1_stride slot snd]; rewrite ?pow2_PInt by assumption; reflexivity.
  - unfold estride. cbn [slot q_spin q_j_fr q_n1_max fst snd]. pose proof (jf_lsf _ _ _ _ _ _ Hf).
    destruct a_fr; [destruct (_ =? _)%Z|destruct (_ =? _)%Z|]; try (apply pow2_pos; assumption). lia.
  - cbn [slot q_n1_max]. lia.
Qed.

(** There is a row for every label. *)
Definition nlabels (q : jpath unit) : nat := Z.to_nat ((q_n1_max q + estride q - 1) / estride q).
Lemma ceil_le x y s : (0 < s)%Z -> (0 <= x <= y)%Z -> (s | y)%Z -> ((x + s - 1) / s <= y / s)%Z.
Proof.
  intros Hs Hx [k ->]. rewrite Z.div_mul by lia. apply Z.lt_succ_r, Z.div_lt_upper_bound; [exact Hs|]. nia.
Qed.
Lemma ceil_p2 m k M : (0 <= k)%Z -> 0 < m <= M -> Nat.divide (p2 k) M -> Z.to_nat ((Z.of_nat m + 2 ^ k - 1) / 2 ^ k) <= M / p2 k.
Proof.
  intros Hk Hm Hd. rewrite (p2_pow k Hk). pose proof (p2_pos k).
  apply Nat2Z.inj_le. rewrite Nat2Z.inj_div, Z2Nat.id by (apply Z.div_pos; lia). apply ceil_le; [lia|lia|].
  destruct Hd as [q ->]. exists (Z.of_nat q). lia.
Qed.
Lemma entries_labels e : In e entries -> 0 < nlabels (e_q e) <= flen (t_phi_fr t) lsf a_fr (e_q e) (e_m e).
Proof.
  intros He. pose proof (jr_fr _ _ _ _ _ _ _ _ _ _ Hr) as Hf. pose proof (entries_fmt e He) as HF.
  pose proof (fo_s _ _ _ _ _ _ _ _ _ _ HF) as Hs.
  destruct (entries_ok e He) as (wj & wn & m & c & G & nfr & psi & -> & Hpsi & Hm & _).
  destruct (jf_psi _ _ _ _ _ _ Hf psi Hpsi) as (P1 & P2 & P3). pose proof (kf_range psi Hpsi) as Hk.
  unfold entry_of in *. cbn [e_q e_m e_n fst snd] in *. split.
  - unfold nlabels. cbn [slot q_n1_max] in *. set (s := estride _) in *.
    assert (1 <= (Z.of_nat m + s - 1) / s)%Z by (apply Z.div_le_lower_bound; lia). lia.
  - unfold nlabels, flen, estride. cbn [slot q_n1_max q_spin q_j_fr fst snd].
    destruct (Z.eqb_spec (sgn (f_xi psi)) 0) as [E0|E0].
    + replace (match a_fr with Global => 2 ^ f_j psi | _ => 2 ^ f_j psi end)%Z with (2 ^ f_j psi)%Z by (destruct a_fr; reflexivity).
      eapply Nat.le_trans; [|apply (ceil_p2 m (kf lsf alf psi) Nfr); [lia|exact Hm|exact P3]].
      assert (0 < 2 ^ kf lsf alf psi)%Z by (apply pow2_pos; lia). assert (0 < 2 ^ f_j psi)%Z by (apply pow2_pos; lia).
      apply Z2Nat.inj_le; [apply Z.div_pos; lia|apply Z.div_pos; lia|].
      assert (2 ^ kf lsf alf psi <= 2 ^ f_j psi)%Z by (apply Z.pow_le_mono_r; lia).
      set (x := (2 ^ kf lsf alf psi)%Z) in *. set (y := (2 ^ f_j psi)%Z) in *.
      apply Z.div_le_lower_bound; [lia|]. pose proof (Z.mul_div_le (Z.of_nat m + y - 1) y ltac:(lia)).
      set (Q := ((Z.of_nat m + y - 1) / y)%Z) in *.
      assert (1 <= Q)%Z by (apply Z.div_le_lower_bound; lia). nia.
    + unfold kphi. cbn [slot q_j_fr snd]. pose proof (jf_lsf _ _ _ _ _ _ Hf). destruct a_fr eqn:Ea; cbn [kf is_local_avg] in P3, Hk |- *.
      * destruct (jr_aligned _ _ _ _ _ _ _ _ _ _ Hr eq_refl psi Hpsi E0) as (D & A3 & _). rewrite A3. unfold kf.
        destruct (p2_divide (Z.min (f_j psi) lsf) lsf Nfr) as (_ & _ & ->); [lia|exact D|]. apply ceil_p2; try assumption.
      * replace (Z.of_nat m + Z.of_nat m - 1)%Z with (Z.of_nat m - 1 + 1 * Z.of_nat m)%Z by lia.
        rewrite Z.div_add, Z.div_small by lia. cbn. lia.
      * now apply ceil_p2.
Qed.

(** Bounds of the time slice kept at a resolution. *)
Definition jlo (k : Z) : nat := Z.to_nat (cdiv (Z.of_nat l) (2 ^ k)).
Definition jhi (k : Z) : nat := Z.to_nat (cdiv (Z.of_nat (l + n)) (2 ^ k)).
Lemma jborders k : (0 <= k <= Z.of_nat mx)%Z ->
  dict_get (s_ind_start b) k = Ok (Z.of_nat (jlo k)) /\ dict_get (s_ind_end b) k = Ok (Z.of_nat (jhi k)).
Proof.
  intros Hk. rewrite (jr_start _ _ _ _ _ _ _ _ _ _ Hr), (jr_end _ _ _ _ _ _ _ _ _ _ Hr).
  rewrite !dict_get_border by assumption.
  assert (E : forall i, iter_half (Z.to_nat k) (Z.of_nat i) = cdiv (Z.of_nat i) (2 ^ k)).
  { intros i. rewrite iter_half_ceil, Z2Nat.id by lia. reflexivity. }
  rewrite !E. assert (Hp : (0 < 2 ^ k)%Z) by (apply pow2_pos; lia).
  assert (Hnn : forall i, (0 <= cdiv (Z.of_nat i) (2 ^ k))%Z).
  { intros i. unfold cdiv. pose proof (Z.div_le_upper_bound (- Z.of_nat i) (2 ^ k) 0 Hp). lia. }
  unfold jlo, jhi. now rewrite !Z2Nat.id by apply Hnn.
Qed.

(** The resolution at which the code unpads a path [q] (with its final labels), and the samples kept. *)
Definition tres (q : jpath unit) : Z :=
  if is_none_avg a && Nat.ltb 1 (List.length (q_n q)) then Z.max (jlast q) 0 else ls.
Definition tcut (q : jpath unit) (row : list K) : list K :=
  match a with Global => row | _ => slice (jlo (tres q)) (jhi (tres q)) row end.
Definition tcut_len (q : jpath unit) (c : nat) : nat :=
  match a with Global => c | _ => Nat.min (jhi (tres q)) c - Nat.min (jlo (tres q)) c end.

Lemma tcut_length q c row : List.length row = c -> List.length (tcut q row) = tcut_len q c.
Proof. intros E. unfold tcut, tcut_len. destruct a; rewrite ?slice_length, E; reflexivity. Qed.

Lemma jfinish_rows batch pre c rows q : rows_ok pre c rows -> prod batch * (if String.eqb (t_format t) "joint" then List.last pre 1 else 1) = prod pre ->
  (String.eqb (t_format t) "joint" = true -> exists pre' m, pre = pre' ++ [m]) ->
  q_j q <> [] -> (0 <= tres q <= Z.of_nat mx)%Z ->
  jfinish np t a batch (set_coef (of_rows Real pre c rows) q) =
  Ok (set_coef (of_rows Real (if String.eqb (t_format t) "joint" then batch ++ [List.last pre 1] else batch) (tcut_len q c) (map (tcut q) rows)) q).
Proof.
  intros R Ep Hpre Hj Ht. destruct (jborders (tres q) Ht) as (B1 & B2).
  unfold jfinish. cbn [set_coef q_coef q_n q_j numpy_backend be_unpad be_reshape_output].
  assert (Eres : (if is_none_avg a && Nat.ltb 1 (List.length (q_n q)) then (j <- py_index (q_j q) (-1);; Ok (Z.max j 0))%res
                  else (l0 <- s_log2_stride b ;; Ok (Z.max l0 0))%res) = Ok (tres q)).
  { unfold tres. destruct (is_none_avg a && _).
    - rewrite py_index_last by exact Hj. reflexivity.
    - rewrite (jr_stride _ _ _ _ _ _ _ _ _ _ Hr). cbn [bind]. pose proof (jt_ls _ _ _ _ _ _ (jr_time _ _ _ _ _ _ _ _ _ _ Hr)). f_equal. lia. }
  match goal with |- bind ?e _ = _ => assert (E1 : e = Ok (of_rows Real pre (tcut_len q c) (map (tcut q) rows))) end.
  { unfold tcut, tcut_len. destruct a eqn:Ea; [|now rewrite map_id|]; rewrite Eres; cbn [bind]; rewrite B1, B2; cbn [bind];
      rewrite np_unpad_of by (try exact R; lia); now rewrite !Nat2Z.id. }
  rewrite E1. cbn [bind].
  assert (R' : rows_ok pre (tcut_len q c) (map (tcut q) rows)) by (eapply rows_ok_map; [|exact R]; intros; now apply tcut_length).
  destruct (String.eqb (t_format t) "joint").
  - destruct (Hpre eq_refl) as (pre' & m & ->). rewrite last_last in *.
    unfold np_reshape_output, reshape. cbn [of_rows nd_shape trailing].
    rewrite !app_length. cbn [List.length]. replace (List.length pre' + 1 + 1 - 2) with (List.length pre') by lia.
    rewrite <- app_assoc, skipn_app, skipn_all, Nat.sub_diag, skipn_O. cbn [app].
    assert (E : prod (batch ++ [m; tcut_len q c]) =? prod (pre' ++ [m; tcut_len q c]) = true).
    { apply Nat.eqb_eq. change [m; tcut_len q c] with ([m] ++ [tcut_len q c]). rewrite !app_assoc, !prod_snoc in *. rewrite Ep. reflexivity. }
    rewrite E. cbn [bind]. unfold of_rows. rewrite <- !app_assoc. reflexivity.
  - rewrite np_reshape_output_of by lia. reflexivity.
Qed.

(** The matrix of a path (rows: n1, columns: time) before time unpadding, computed from a signal; its size; and the final
    coefficients. *)
Notation padded row := (pad_reflect_row o l r n row).
Notation final_q q := (restride lsf a_fr q).
Definition jmat (e : entry) (row : list K) : matrix K :=
  gmap o (s_phi b) ls a (t_phi_fr t) lsf a_fr (s_out_type b) (t_format t) (e_q e) (estride (e_q e)) (e_m e) (e_n e) (e_G e (padded row)).
Definition jrows (e : entry) : nat := ulen (s_out_type b) (t_format t) (e_q e) (estride (e_q e)) (flen (t_phi_fr t) lsf a_fr (e_q e) (e_m e)).
Definition jcols (e : entry) : nat := tlen ls a (e_q e) (e_n e).
Lemma jmat_ok e row : In e entries -> mat_ok (jrows e) (jcols e) (jmat e row).
Proof.
  intros He. apply (gmap_ok o Ho). destruct (entries_ok e He) as (wj & wn & m & c & G & nfr & psi & -> & Hpsi & Hm & Hc & HG & _).
  unfold entry_of. cbn [e_G e_m e_n]. unfold freq. apply tr_ok.
  eapply mat_ok_rows; [|apply tr_ok, HG]. intros x _. apply (cfilt_length o Ho).
Qed.

Definition joint_q (e : entry) : jpath unit := set_order (List.length (q_n (e_q e))) (final_q (e_q e)).
Definition time_q (e : entry) (i : nat) : jpath unit := label (final_q (e_q e)) (Z.of_nat i * estride (e_q e)).
Definition out_paths (batch : list nat) (rows : list (list K)) (e : entry) : list (jpath (nd K)) :=
  if String.eqb (t_format t) "joint" then
    [set_coef (of_rows Real (batch ++ [jrows e]) (tcut_len (joint_q e) (jcols e))
                (concat (map (fun row => map (tcut (joint_q e)) (jmat e row)) rows))) (joint_q e)]
  else
    map (fun i => set_coef (of_rows Real batch (tcut_len (time_q e i) (jcols e))
                    (map (fun row => tcut (time_q e i) (nth i (jmat e row) [])) rows)) (time_q e i))
        (seq 0 (nlabels (e_q e))).
(** Zeroth order. *)
Definition zeroth (row : list K) : list K :=
  match a with
  | Global => [osum o (padded row)]
  | Local => slice (jlo ls) (jhi ls) (r_low o (s_phi b) 0 ls N (padded row))
  | NoAvg => slice (jlo 0) (jhi 0) (padded row)
  end.
Definition zeroth_len : nat :=
  match a with
  | Global => 1
  | Local => Nat.min (jhi ls) (N / p2 ls) - Nat.min (jlo ls) (N / p2 ls)
  | NoAvg => Nat.min (jhi 0) N - Nat.min (jlo 0) N
  end.

Lemma entries_paths B rows : first_paths o sgn (s_phi b) (s_psi1 b) N ls al (t_psis_fr t) Nfr lsf alf B rows ++
    second_paths o sgn (s_psi1 b) (s_psi2 b) N ls al (t_psis_fr t) Nfr lsf alf B rows =
  map (fun e => set_coef (of_mats Complex B (e_m e) (e_n e) (map (e_G e) rows)) (e_q e)) entries.
Proof.
  unfold first_paths, second_paths, entries. rewrite map_app, map_map. f_equal.
  induction (enumerate (s_psi2 b)) as [|np2 L IH]; [reflexivity|]. cbn [flat_map]. rewrite map_app, IH. f_equal.
  destruct (Nat.ltb _ _); [|reflexivity]. now rewrite map_map.
Qed.

Lemma mapM_app_Ok {A B} (f : A -> res B) xs ys ys1 ys2 : mapM f xs = Ok ys1 -> mapM f ys = Ok ys2 -> mapM f (xs ++ ys) = Ok (ys1 ++ ys2).
Proof.
  revert ys1. induction xs as [|x xs IH]; cbn [mapM app]; intros ys1 H1 H2.
  - injection H1 as <-. exact H2.
  - destruct (f x); [|discriminate]. cbn [bind] in *. destruct (mapM f xs) as [ys1'|] eqn:E; [|discriminate]. cbn [bind] in *.
    injection H1 as <-. rewrite (IH ys1' eq_refl H2). reflexivity.
Qed.

Lemma tres_ok e q : In e entries -> q_j q = q_j (e_q e) -> q_j q <> [] /\ (0 <= tres q <= Z.of_nat mx)%Z.
Proof.
  intros He Ej. pose proof (jr_keys _ _ _ _ _ _ _ _ _ _ Hr) as [K1 K2].
  pose proof (jt_ls _ _ _ _ _ _ (jr_time _ _ _ _ _ _ _ _ _ _ Hr)).
  destruct (entries_ok e He) as (wj & wn & m & c & G & nfr & psi & -> & _ & _ & _ & _ & Hcase).
  unfold entry_of in Ej. cbn [e_q slot q_j] in Ej. unfold tres, jlast. rewrite Ej.
  destruct Hcase as [(-> & _)|(n2 & f2 & H2 & _ & -> & _ & _ & Hj)]; (split; [discriminate|]); cbn [List.last];
    try specialize (K2 f2 H2); destruct (_ && _); lia.
Qed.

Theorem jpaths_rows batch rows : rows_ok batch n rows -> jcheck_runtime_args t = Ok tt ->
  jpaths np sgn t (of_rows Real batch n rows) =
  Ok (mk_path (of_rows Real batch zeroth_len (map zeroth rows)) [] [], flat_map (out_paths batch rows) entries).
Proof.
  intros R Hchk. pose proof (jr_time _ _ _ _ _ _ _ _ _ _ Hr) as Ht. pose proof (jr_fr _ _ _ _ _ _ _ _ _ _ Hr) as Hf.
  pose proof (jr_l _ _ _ _ _ _ _ _ _ _ Hr) as Hl. pose proof (jr_r _ _ _ _ _ _ _ _ _ _ Hr) as Hr'.
  assert (Hfmt : t_format t = "joint"%string \/ t_format t = "time"%string).
  { unfold jcheck_runtime_args in Hchk. inv_bind Hchk. inv_bind Hchk.
    destruct (String.eqb_spec (t_format t) "time"); [now right|]. destruct (String.eqb_spec (t_format t) "joint"); [now left|discriminate]. }
  unfold jpaths. rewrite Hchk. cbn [bind]. change (be_shape np (of_rows Real batch n rows)) with (batch ++ [n]).
  unfold check_input. rewrite app_length. cbn [List.length]. destruct (Nat.ltb_spec (List.length batch + 1) 1); [lia|]. cbn [raise_if bind].
  rewrite split_last_snoc. cbn [bind]. cbn [numpy_backend be_reshape_input be_pad].
  rewrite np_reshape_input_of by lia. cbn [bind].
  assert (R1 : rows_ok [prod batch; 1] n rows) by (eapply rows_ok_pre; [|exact R]; cbn; lia).
  rewrite (jr_left _ _ _ _ _ _ _ _ _ _ Hr), (jr_right _ _ _ _ _ _ _ _ _ _ Hr). rewrite np_pad_of by assumption. cbn [bind].
  rewrite (jr_stride _ _ _ _ _ _ _ _ _ _ Hr), (jr_avg _ _ _ _ _ _ _ _ _ _ Hr), (jr_stride_fr _ _ _ _ _ _ _ _ _ _ Hr), (jr_avg_fr _ _ _ _ _ _ _ _ _ _ Hr). cbn [bind].
  set (rows' := map (pad_reflect_row o l r n) rows). set (B := prod batch) in *.
  assert (R2 : rows_ok [B; 1] N rows') by (eapply rows_ok_map; [|exact R1]; intros; apply pad_row_length).
  assert (HB : List.length rows' = B) by (destruct R2 as [E _]; cbn in E; lia).
  change (numpy_backend o) with np. rewrite (joint_rows o Ho sgn _ _ _ _ _ _ _ _ Nfr _ _ Ht Hf B rows' R2). cbn [bind].
  unfold average_and_format. rewrite entries_paths.
  set (P0 := p0 _ _ _ _ _ _ _).
  rewrite mapM_map, (mapM_Ok _ (fun e => fmt_paths o (s_phi b) ls a (t_phi_fr t) lsf a_fr (s_out_type b) (t_format t) B rows' (e_q e) (estride (e_q e)) (e_m e) (e_n e) (e_G e))).
  2:{ intros e He. apply (format_rows o Ho); try assumption.
      - now apply entries_fmt.
      - intros row _. destruct (entries_ok e He) as (wj & wn & m & c & G & nfr & psi & -> & Hpsi & Hm & Hc & HG & _).
        unfold entry_of. cbn [e_G e_m e_n]. unfold freq. apply tr_ok.
        eapply mat_ok_rows; [|apply tr_ok, HG]. intros x _. apply (cfilt_length o Ho).
      - intros _. now apply entries_labels. }
  set (Z0 := mk_path (of_rows Real batch zeroth_len (map zeroth rows)) [] []).
  assert (E0 : (p <- (match a with Global => c <- be_average_global np (p_coef P0) ;; Ok (mk_path c (p_j P0) (p_n P0)) | _ => Ok P0 end) ;;
                jfinish0 np t a batch p)%res = Ok Z0).
  { pose proof (jt_ls _ _ _ _ _ _ Ht). pose proof (jr_keys _ _ _ _ _ _ _ _ _ _ Hr) as [K1 _].
    pose proof (jr_stride _ _ _ _ _ _ _ _ _ _ Hr) as Hstr. pose proof (jborders ls ltac:(lia)) as [J1 J2]. pose proof (jborders 0 ltac:(lia)) as [J3 J4].
    unfold P0, Z0, p0, jfinish0, zeroth, zeroth_len, rows'. destruct a eqn:Ea; cbn [is_local_avg bind p_coef p_j p_n numpy_backend be_average_global be_unpad be_reshape_output].
    - rewrite Hstr. cbn [bind]. rewrite J1, J2. cbn [bind].
      rewrite np_unpad_of by first [lia | eapply rows_ok_map; [|exact R2]; intros; apply (r_low_length o Ho)].
      cbn [bind]. rewrite np_reshape_output_of by (unfold B; cbn; lia). cbn [bind]. rewrite !map_map, !Nat2Z.id. reflexivity.
    - rewrite map_id. rewrite np_average_of by exact R2. cbn [bind p_coef]. rewrite np_reshape_output_of by (unfold B; cbn; lia). cbn [bind]. rewrite map_map. reflexivity.
    - rewrite J3, J4. cbn [bind]. rewrite map_id.
      rewrite np_unpad_of by (try lia; exact R2). cbn [bind]. rewrite np_reshape_output_of by (unfold B; cbn; lia). cbn [bind].
      rewrite map_map, !Nat2Z.id. reflexivity. }
  assert (E1 : mapM (jfinish np t a batch) (concat (map (fun e => fmt_paths o (s_phi b) ls a (t_phi_fr t) lsf a_fr (s_out_type b) (t_format t) B rows' (e_q e) (estride (e_q e)) (e_m e) (e_n e) (e_G e)) entries))
     = Ok (flat_map (out_paths batch rows) entries)).
  { assert (Hall : forall e, In e entries -> In e entries) by auto. revert Hall. generalize entries at 1 3 4. intros L.
    induction L as [|e L IH]; intros Hall; [reflexivity|]. cbn [map concat flat_map]. apply mapM_app_Ok; [|apply IH; intros; apply Hall; now right].
    assert (He : In e entries) by (apply Hall; now left). clear IH Hall.
    unfold fmt_paths, out_paths. destruct (String.eqb_spec (t_format t) "joint") as [Ej|Ej].
    - cbn [mapM]. destruct (tres_ok e (joint_q e) He) as [T1 T2].
      { unfold joint_q. cbn [set_order q_j]. apply restride_same. }
      assert (M : mats_ok B (jrows e) (jcols e) (map (fun x => jmat e x) rows)).
      { split; [rewrite map_length; unfold rows' in HB; now rewrite map_length in HB|]. apply Forall_map, Forall_forall. intros x _. now apply jmat_ok. }
      pose proof (jfinish_rows batch [B; 1; jrows e] (jcols e) (concat (map (fun x => jmat e x) rows)) (joint_q e) (mats_rows _ _ _ _ M)) as J.
      rewrite Ej in J. cbn [String.eqb Ascii.eqb Bool.eqb List.last] in J. unfold of_mats. unfold rows'. rewrite map_map.
      change (jfinish np t a batch _) with (jfinish np t a batch (set_coef (of_rows Real [B; 1; jrows e] (jcols e) (concat (map (fun x => jmat e x) rows))) (joint_q e))).
      rewrite J; [|cbn; unfold B; lia|intros _; now exists [B; 1], (jrows e)|exact T1|exact T2].
      cbn [bind]. rewrite map_concat_mats, map_map. reflexivity.
    - apply String.eqb_neq in Ej. rewrite mapM_map. fold (nlabels (e_q e)). apply mapM_Ok. intros i Hi. apply in_seq in Hi.
      destruct (tres_ok e (time_q e i) He) as [T1 T2].
      { unfold time_q, label. cbn [set_n set_order q_j]. apply restride_same. }
      pose proof (jfinish_rows batch [B; 1; 1] (jcols e) (map (fun x => nth i (jmat e x) []) rows) (time_q e i)) as J.
      rewrite Ej in J. unfold rows'. rewrite map_map.
      change (jfinish np t a batch _) with (jfinish np t a batch (set_coef (of_rows Real [B; 1; 1] (jcols e) (map (fun x => nth i (jmat e x) []) rows)) (time_q e i))).
      rewrite J; [rewrite map_map; reflexivity| |cbn; unfold B; lia|discriminate|exact T1|exact T2].
      split; [rewrite map_length; cbn; unfold rows' in HB; rewrite map_length in HB; lia|].
      apply Forall_map, Forall_forall. intros x Hx. destruct (jmat_ok e x He) as [M1 M2].
      rewrite Forall_forall in M2. apply M2. apply nth_In. rewrite M1. unfold jrows, ulen.
      pose proof (entries_labels e He) as HL. pose proof (entries_fmt e He) as HF. pose proof (fo_s _ _ _ _ _ _ _ _ _ _ HF). pose proof (fo_max _ _ _ _ _ _ _ _ _ _ HF).
      destruct (joint_array _ _); [lia|]. apply Nat.min_glb_lt; [|lia]. unfold nlabels in Hi. set (s := estride (e_q e)) in *.
      pose proof (Z.div_pos (q_n1_max (e_q e)) s). assert ((q_n1_max (e_q e) + s - 1) / s <= 1 + q_n1_max (e_q e) / s)%Z; [|lia].
      replace (1 + q_n1_max (e_q e) / s)%Z with ((q_n1_max (e_q e) + 1 * s) / s)%Z by (rewrite Z.div_add by lia; lia). apply Z.div_le_mono; lia. }
  cbn [bind]. destruct (match a with Global => _ | _ => _ end) as [P0'|]; cbn [bind] in E0 |- *; [|discriminate].
  rewrite E0. cbn [bind]. rewrite E1. reflexivity.
Qed.
End Run.
End Full.
