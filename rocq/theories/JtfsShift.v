(** Joint time-frequency scattering of a circularly shifted signal. *)
From Coq Require Import String Reals ZArith QArith List Bool Arith Lia.
From Coquelicot Require Import Complex.
From Verif Require Import Base BaseProofs NdArray Backend Core1d Utils1d Utils1dProofs Frontend1d Frontend1dProofs NdProofs Rows1d FrontRows Mats
  Factory1d FactoryProofs ComplexOps FilterBank1d FilterBank1dProofs Construct1d Shape1d PropShapes1d Dft Conv1d Value1d PropNumerics1d
  Jtfs JtfsFront JtfsProofs JtfsKeys JtfsRows JtfsFmt JtfsFull JtfsConstruct JtfsMeta JtfsTotal PropJtfs JtfsReady JtfsRun SpecJtfsValue JtfsValue JtfsCoef.
Import ListNotations.
Local Open Scope nat_scope.

Lemma sampled_conv_length x w k : List.length (sampled_conv x w k) = List.length x / k.
Proof. unfold sampled_conv. now rewrite map_length, seq_length. Qed.
Lemma rotate_conv d x w k : 0 < k -> Nat.divide k (List.length x) -> 0 < List.length x ->
  sampled_conv (rotate (Z.of_nat k * d) x) w k = rotate d (sampled_conv x w k).
Proof.
  intros Hk [m Hm] Hx. apply list_ext; [now rewrite rotate_length, !sampled_conv_length, rotate_length|].
  rewrite sampled_conv_length, rotate_length. intros u Hu.
  rewrite at_rotate by (rewrite sampled_conv_length; exact Hu). rewrite sampled_conv_length.
  assert (Em : List.length x / k = m) by (rewrite Hm; apply Nat.div_mul; lia). rewrite Em in *.
  pose proof (Z.mod_pos_bound (Z.of_nat u - d) (Z.of_nat m) ltac:(lia)) as B.
  unfold sampled_conv. rewrite at_map_seq by (rewrite rotate_length, Em; exact Hu).
  rewrite at_map_seq by (rewrite Em; lia). rewrite cconv_rotate by exact Hx.
  apply cconv_congr; [|exact Hx]. rewrite !Nat2Z.inj_mul, Z2Nat.id by lia.
  rewrite Hm, Nat2Z.inj_mul, (Z.mul_comm (Z.of_nat m)), <- Z.mul_sub_distr_l, !Zmult_mod_distr_l, Z.mod_mod by lia. reflexivity.
Qed.
Lemma csum_rotate d x : 0 < List.length x -> csum (List.length (rotate d x)) (at_ (rotate d x)) = csum (List.length x) (at_ x).
Proof.
  intros Hx. rewrite rotate_length.
  rewrite (csum_ext _ _ (fun m => at_ x (Z.to_nat ((Z.of_nat m + - d) mod Z.of_nat (List.length x))))).
  - rewrite (csum_shift (List.length x) Hx (fun z => at_ x (Z.to_nat (z mod Z.of_nat (List.length x))))).
    + apply csum_ext. intros m Hm. rewrite Z.mod_small, Nat2Z.id by lia. reflexivity.
    + intros p q E. now rewrite E.
  - intros m Hm. now rewrite at_rotate.
Qed.
Lemma osum_rotate d x : 0 < List.length x -> osum complex_ops (rotate d x) = osum complex_ops x.
Proof. intros Hx. rewrite !osum_at. now apply csum_rotate. Qed.

Section Rows.
Context {P : Type}.
Notation filter := (Core1d.filter (nd C) P).
Variables (phi : filter) (psi1s psi2s : list filter) (N : nat) (ls : Z) (a : avg).
Notation al := (is_local_avg a).
Hypothesis (Ht : jadm_time phi psi1s psi2s N ls al).

Lemma kk_rate (f1 : filter) : kk ls al f1 = rate1 ls a f1.
Proof. unfold kk, rate1. clear. destruct a; reflexivity. Qed.
Lemma shift_split k d : (0 <= k <= ls)%Z -> (Z.of_nat (p2 ls) * d = Z.of_nat (p2 k) * (Z.of_nat (p2 (ls - k)) * d))%Z.
Proof. intros Hk. replace ls with (k + (ls - k))%Z at 1 by lia. rewrite p2_add by lia. lia. Qed.

Lemma U1_rotate f1 d x : In f1 psi1s -> List.length x = N ->
  U1 ls a f1 (rotate (Z.of_nat (p2 ls) * d) x) = rotate (Z.of_nat (p2 (ls - rate1 ls a f1)) * d) (U1 ls a f1 x).
Proof.
  intros H Hx. destruct (kk_facts phi psi1s psi2s N ls al Ht f1 H) as (K0 & K1 & K2 & K3 & _). rewrite (kk_rate f1) in *.
  unfold U1. rewrite (shift_split (rate1 ls a f1)) by lia. apply rotate_envelope; rewrite ?Hx; try assumption; [apply p2_pos|].
  pose proof (jt_N _ _ _ _ _ _ Ht). lia.
Qed.
Lemma rows1_rotate d x : List.length x = N ->
  rows1 phi psi1s ls a (rotate (Z.of_nat (p2 ls) * d) x) = map (rotate d) (rows1 phi psi1s ls a x).
Proof.
  intros Hx. unfold rows1. rewrite map_map. apply map_ext_in. intros f1 H.
  destruct (kk_facts phi psi1s psi2s N ls al Ht f1 H) as (K0 & K1 & K2 & K3 & K4 & K5).
  destruct (U1_spec phi psi1s psi2s N ls a Ht f1 x H Hx) as [_ EL]. rewrite (kk_rate f1) in *.
  rewrite (U1_rotate f1 d x H Hx). apply rotate_lowpass; rewrite ?EL; try assumption. apply p2_pos.
Qed.
Lemma rows1_length x row : List.length x = N -> In row (rows1 phi psi1s ls a x) -> List.length row = N / p2 ls.
Proof.
  intros Hx. unfold rows1. rewrite in_map_iff. intros (f1 & <- & H).
  destruct (kk_facts phi psi1s psi2s N ls al Ht f1 H) as (K0 & K1 & K2 & K3 & K4 & K5).
  destruct (U1_spec phi psi1s psi2s N ls a Ht f1 x H Hx) as [_ EL]. rewrite (kk_rate f1) in *.
  rewrite sampled_lowpass_length, EL. assumption.
Qed.
Lemma rows2_rotate f2 d x : In f2 psi2s -> List.length x = N ->
  rows2 psi1s ls a f2 (rotate (Z.of_nat (p2 ls) * d) x) = map (rotate (Z.of_nat (p2 (ls - f_j f2)) * d)) (rows2 psi1s ls a f2 x).
Proof.
  intros H2 Hx. unfold rows2. rewrite map_map. apply map_ext_in. intros f1 H. apply filter_In in H as [H Hj]. apply Z.ltb_lt in Hj.
  destruct (kk_facts phi psi1s psi2s N ls al Ht f1 H) as (K0 & K1 & K2 & K3 & K4 & K5).
  destruct (jt_psi2 _ _ _ _ _ _ Ht f1 f2 H H2 Hj) as (J2 & J3). destruct (wave2_facts phi psi1s psi2s N ls al Ht f1 f2 H H2 Hj) as (W1 & W2 & W3 & _).
  destruct (U1_spec phi psi1s psi2s N ls a Ht f1 x H Hx) as [_ EL]. rewrite (kk_rate f1) in *.
  rewrite (U1_rotate f1 d x H Hx).
  replace (Z.of_nat (p2 (ls - rate1 ls a f1)) * d)%Z with (Z.of_nat (p2 (f_j f2 - rate1 ls a f1)) * (Z.of_nat (p2 (ls - f_j f2)) * d))%Z.
  2:{ replace (ls - rate1 ls a f1)%Z with ((f_j f2 - rate1 ls a f1) + (ls - f_j f2))%Z by lia. rewrite p2_add by lia. lia. }
  apply rotate_conv; rewrite ?EL; try assumption. apply p2_pos.
Qed.
Lemma rows2_length f2 x row : In f2 psi2s -> List.length x = N -> In row (rows2 psi1s ls a f2 x) -> List.length row = N / p2 (f_j f2).
Proof.
  intros H2 Hx. unfold rows2. rewrite in_map_iff. intros (f1 & <- & H). apply filter_In in H as [H Hj]. apply Z.ltb_lt in Hj.
  destruct (wave2_facts phi psi1s psi2s N ls al Ht f1 f2 H H2 Hj) as (W1 & W2 & W3 & W4).
  destruct (U1_spec phi psi1s psi2s N ls a Ht f1 x H Hx) as [_ EL]. rewrite (kk_rate f1) in *.
  rewrite sampled_conv_length, EL. intuition.
Qed.
End Rows.

Section Joint.
Context {P : Type}.
Notation filter := (Core1d.filter (nd C) P).
Variables (phi : filter) (ls : Z) (a : avg) (phi_fr : filter) (Nfr : nat) (lsf : Z) (af : avg).
Variables (psi : filter) (c : nat) (M : list (list C)).
Hypotheses (Hc : 0 < c) (HM : forall row, In row M -> List.length row = c).

Lemma at_nil u : at_ [] u = RtoC 0.
Proof. unfold at_. now destruct u. Qed.
Lemma column_rotate e u : u < c -> column Nfr (map (rotate e) M) u = column Nfr M (Z.to_nat ((Z.of_nat u - e) mod Z.of_nat c)).
Proof.
  intros Hu. unfold column. apply map_ext. intros n1. destruct (Nat.lt_ge_cases n1 (List.length M)) as [Hn|Hn].
  - rewrite (nth_map_in _ _ _ []) by exact Hn. assert (El : List.length (nth n1 M []) = c) by (apply HM, nth_In; exact Hn).
    rewrite at_rotate by (rewrite El; exact Hu). now rewrite El.
  - rewrite !nth_overflow by (rewrite ?map_length; exact Hn). now rewrite !at_nil.
Qed.
Lemma modulus_rotate e p :
  map (fun u => joint_modulus Nfr (map (rotate e) M) psi p u) (seq 0 c) = rotate e (map (fun u => joint_modulus Nfr M psi p u) (seq 0 c)).
Proof.
  apply list_ext; [now rewrite rotate_length, !map_length|]. rewrite map_length, seq_length. intros u Hu.
  rewrite at_rotate by (rewrite map_length, seq_length; exact Hu). rewrite map_length, seq_length.
  pose proof (Z.mod_pos_bound (Z.of_nat u - e) (Z.of_nat c) ltac:(lia)) as B.
  rewrite !at_map_seq by lia. unfold joint_modulus. now rewrite column_rotate.
Qed.

(** Shift of the averaged row, in its samples, when the rows move by [e] samples. *)
Variables (j2 : option Z) (d : Z).
Definition moved : Z := match a, j2 with NoAvg, Some j => Z.of_nat (p2 (ls - j)) * d | _, _ => d end.
Definition drows : Z := match j2 with Some j => Z.of_nat (p2 (ls - j)) * d | None => d end.
Hypothesis (Hj : a = Local -> forall j, j2 = Some j -> Nat.divide (p2 (ls - j)) c).

Lemma averaged_rotate kf r :
  averaged_row phi ls a Nfr j2 (map (rotate drows) M) psi kf c r = rotate moved (averaged_row phi ls a Nfr j2 M psi kf c r).
Proof.
  unfold averaged_row. rewrite modulus_rotate. set (row := map _ (seq 0 c)).
  assert (El : List.length row = c) by (unfold row; now rewrite map_length, seq_length).
  unfold time_average, moved, drows. destruct a eqn:Ea.
  - destruct j2 as [j|] eqn:E2; [|reflexivity]. apply rotate_lowpass; rewrite ?El; try assumption; [apply p2_pos|now apply Hj].
  - rewrite csum_rotate by (rewrite El; exact Hc). unfold rotate. cbn [List.length seq map]. now rewrite Z.mod_1_r.
  - now destruct j2.
Qed.

Lemma value_rotate spin kf r v L : (forall p, List.length (averaged_row phi ls a Nfr j2 M psi kf c p) = L) -> v < L ->
  joint_value phi ls a phi_fr Nfr lsf af j2 (map (rotate drows) M) psi spin kf c r v =
  joint_value phi ls a phi_fr Nfr lsf af j2 M psi spin kf c r (Z.to_nat ((Z.of_nat v - moved) mod Z.of_nat L)).
Proof.
  intros HL Hv. unfold joint_value. rewrite averaged_rotate. destruct (spin =? 0)%Z.
  - rewrite at_rotate by (rewrite HL; exact Hv). now rewrite HL.
  - f_equal. f_equal. apply map_ext. intros p. rewrite averaged_rotate, at_rotate by (rewrite HL; exact Hv). now rewrite HL.
Qed.
End Joint.

Section Run.
Variables (t : jtfs (nd C) R) (n l r mx : nat) (ls : Z) (a : avg) (Nfr : nat) (lsf : Z) (af : avg).
Hypothesis (Hr : jready sgnR t n l r mx ls a Nfr lsf af).
Notation b := (t_base t).
Notation N := (l + n + r).
Notation es := (entries complex_ops sgnR t n l r ls a Nfr lsf af).
Notation emat := (emat t ls a lsf af).

Lemma emat_ok e y : In e es -> mat_ok (jrows t lsf af e) (jcols ls a e) (emat e y).
Proof.
  intros He. apply (gmap_ok complex_ops complex_ops_ok).
  destruct (entries_ok complex_ops complex_ops_ok sgnR t n l r mx ls a Nfr lsf af Hr e He) as (wj & wn & m & c & G & nfr & psi & -> & Hpsi & Hm & Hc & HG & _).
  unfold entry_of. cbn [e_G e_m e_n]. unfold freq. apply tr_ok.
  eapply mat_ok_rows; [|apply tr_ok, HG]. intros x _. apply (cfilt_length complex_ops complex_ops_ok).
Qed.

(** Resolution of the rows of an entry after averaging, and the labels it is read from. *)
Definition row_res (q : jpath unit) : Z := match a, q_j q with NoAvg, [_; j2] => j2 | _, _ => ls end.

Lemma emat_rotate e d y : In e es -> List.length y = N ->
  (forall i, i < jrows t lsf af e ->
    nth i (emat e (rotate (Z.of_nat (p2 ls) * d) y)) [] = rotate (Z.of_nat (p2 (ls - row_res (e_q e))) * d) (nth i (emat e y) [])) /\
  (0 <= row_res (e_q e) <= ls)%Z /\ jcols ls a e = match a with Global => 1 | _ => N / p2 (row_res (e_q e)) end.
Proof.
  intros He Hy.
  pose proof (jr_time _ _ _ _ _ _ _ _ _ _ _ Hr) as Ht. pose proof (jt_ls _ _ _ _ _ _ Ht) as Hls. pose proof (jt_div _ _ _ _ _ _ Ht) as Hdiv.
  pose proof (jt_N _ _ _ _ _ _ Ht) as HN.
  destruct (entries_ok complex_ops complex_ops_ok sgnR t n l r mx ls a Nfr lsf af Hr e He) as (wj & wn & m' & c' & G & nfr & psi' & Ee & _ & _ & Hc' & _ & Hcase).
  destruct (entry_spec_padded t n l r mx ls a Nfr lsf af Hr e He) as (psi & j2 & rows & c & m & Hsrc & Hcn & Hm0 & Hpsi & Hsp & Hjf & Hn1 & Hj2 & Hem & _ & _ & _ & Hval).
  set (z := (Z.of_nat (p2 ls) * d)%Z) in *.
  assert (Hy' : List.length (rotate z y) = N) by now rewrite rotate_length.
  destruct (emat_ok e y He) as [O1 O2]. destruct (emat_ok e (rotate z y) He) as [O1' O2'].
  rewrite Forall_forall in O2, O2'.
  assert (Facts : rows (rotate z y) = map (rotate (drows ls j2 d)) (rows y) /\ (forall row, In row (rows y) -> List.length row = c) /\ 0 < c /\
    (a = Local -> forall j, j2 = Some j -> Nat.divide (p2 (ls - j)) c) /\
    (Z.of_nat (p2 (ls - row_res (e_q e))) * d = moved ls a j2 d)%Z /\ (0 <= row_res (e_q e) <= ls)%Z /\
    jcols ls a e = match a with Global => 1 | _ => N / p2 (row_res (e_q e)) end).
  { assert (E0 : (Z.of_nat (p2 (ls - ls)) * d = d)%Z) by (rewrite Z.sub_diag; change (p2 0) with 1; lia).
    rewrite Ee in Hj2, Hcn, Hsrc. unfold jcols, row_res, tlen, second, jlast. rewrite Ee. clear Hval Hem Hjf Hsp Ee He.
    cbn [entry_of e_q e_n slot q_j q_n fst snd] in *.
    destruct Hcase as [(-> & -> & ->)|(n2 & f2 & H2 & Hs & -> & -> & -> & Hj)].
    - cbn [app] in Hsrc. inversion Hsrc; subst. cbn [drows moved List.length app Nat.ltb Nat.leb].
      split; [now apply rows1_rotate with (psi2s := s_psi2 b) (N := N)|].
      split; [intros row; apply rows1_length with (psi2s := s_psi2 b); assumption|].
      split; [exact Hc'|]. split; [discriminate|]. unfold moved. destruct a; (split; [exact E0|]; split; [lia|reflexivity]).
    - cbn [app] in Hsrc. assert (Ej2 : j2 = Some (f_j f2)) by (rewrite Hj2; reflexivity). clear Hj2. subst c.
      inversion Hsrc as [|? ? f2' ? En2 Enf Hns Hps Hjj Hrows Hcc]. subst.
      assert (Ej : f_j f2' = f_j f2) by congruence.
      pose proof (nth_error_In _ _ En2) as H2'. rewrite Ej in *.
      destruct (p2_divide _ _ _ Hj Hdiv) as (D1 & D2 & D3).
      cbn [drows List.length app Nat.ltb Nat.leb List.last].
      split. { rewrite <- Ej. now apply rows2_rotate with (phi := s_phi b) (psi2s := s_psi2 b) (N := N). }
      split. { intros row. change (2 ^ Z.to_nat (f_j f2)) with (p2 (f_j f2)). rewrite <- Ej. apply rows2_length with (phi := s_phi b) (psi2s := s_psi2 b); assumption. }
      split; [exact Hc'|].
      split. { intros _ j E. injection E as <-. exact D2. }
      unfold moved. destruct a.
      + split; [exact E0|]. split; [lia|]. exact D3.
      + split; [exact E0|]. split; [lia|reflexivity].
      + split; [reflexivity|]. split; [lia|reflexivity]. }
  destruct Facts as (F1 & F2 & F3 & F4 & F5 & F6 & F7). split; [|split; [exact F6|exact F7]]. intros i Hi.
  assert (L1 : List.length (nth i (emat e y) []) = jcols ls a e) by (apply O2, nth_In; rewrite O1; exact Hi).
  assert (L2 : List.length (nth i (emat e (rotate z y)) []) = jcols ls a e) by (apply O2', nth_In; rewrite O1'; exact Hi).
  apply list_ext; [rewrite rotate_length; congruence|]. rewrite L2. intros v Hv. rewrite F5.
  rewrite at_rotate by (rewrite L1; exact Hv). rewrite L1.
  pose proof (Z.mod_pos_bound (Z.of_nat v - moved ls a j2 d) (Z.of_nat (jcols ls a e)) ltac:(lia)) as B.
  rewrite !Hval by (try assumption; lia). rewrite F1.
  apply value_rotate with (L := jcols ls a e); try assumption.
  intros p. subst j2 c. unfold averaged_row, time_average, jcols, tlen, j2_of. set (row := map _ (seq 0 (e_n e))).
  assert (El : List.length row = e_n e) by (unfold row; now rewrite map_length, seq_length).
  clear - El. destruct a; [|reflexivity|exact El]. destruct (second (e_q e)); [rewrite sampled_lowpass_length, El; reflexivity|exact El].
Qed.
End Run.

(** The paths computed from a padded batch, before unpadding. *)
Section Padded.
Variables (t : jtfs (nd C) R) (n l r mx : nat) (ls : Z) (a : avg) (Nfr : nat) (lsf : Z) (af : avg).
Hypothesis (Hr : jready sgnR t n l r mx ls a Nfr lsf af).
Notation b := (t_base t).
Notation N := (l + n + r).
Notation np := (numpy_backend complex_ops).
Notation es := (entries complex_ops sgnR t n l r ls a Nfr lsf af).
Notation emat := (emat t ls a lsf af).

Definition padded0 (row : list C) : list C :=
  match a with Global => [osum complex_ops row] | Local => r_low complex_ops (s_phi b) 0 ls N row | NoAvg => row end.
Definition len0 : nat := match a with Global => 1 | Local => N / p2 ls | NoAvg => N end.
Definition padded_paths (B : nat) (rows : list (list C)) (e : entry) : list (jpath (nd C)) :=
  if String.eqb (t_format t) "joint" then
    [set_coef (of_mats Real B (jrows t lsf af e) (jcols ls a e) (map (emat e) rows)) (joint_q lsf af e)]
  else map (fun i => set_coef (of_rows Real [B; 1; 1] (jcols ls a e) (map (fun row => nth i (emat e row) []) rows)) (time_q lsf af e i))
         (seq 0 (nlabels lsf af (e_q e))).

Theorem core_rows B rows : t_format t = "joint"%string \/ t_format t = "time"%string -> rows_ok [B; 1] N rows ->
  (G <- joint_scattering np sgnR (of_rows Real [B; 1] N rows) (s_phi b) (s_psi1 b) (s_psi2 b) ls (is_local_avg a) (t_phi_fr t) (t_psis_fr t) lsf (is_local_avg af) ;;
   average_and_format np false (s_phi b) ls a (t_phi_fr t) lsf af (s_out_type b) (t_format t) G)%res =
  Ok (mk_path (of_rows Real [B; 1] len0 (map padded0 rows)) [] [], flat_map (padded_paths B rows) es).
Proof.
  intros Hfmt R2. pose proof (jr_time _ _ _ _ _ _ _ _ _ _ _ Hr) as Ht. pose proof (jr_fr _ _ _ _ _ _ _ _ _ _ _ Hr) as Hf.
  assert (HB : List.length rows = B) by (destruct R2 as [E _]; cbn in E; lia).
  rewrite (joint_rows complex_ops complex_ops_ok sgnR _ _ _ _ _ _ _ _ Nfr _ _ Ht Hf B rows R2). cbn [bind].
  unfold average_and_format. rewrite (entries_paths complex_ops sgnR t n l r ls a Nfr lsf af B rows).
  set (P0 := p0 _ _ _ _ _ _ _).
  rewrite mapM_map, (mapM_Ok _ (fun e => fmt_paths complex_ops (s_phi b) ls a (t_phi_fr t) lsf af (s_out_type b) (t_format t) B rows (e_q e) (estride lsf af (e_q e)) (e_m e) (e_n e) (e_G e))).
  2:{ intros e He. apply (format_rows complex_ops complex_ops_ok); try assumption.
      - now apply (entries_fmt complex_ops complex_ops_ok sgnR t n l r mx ls a Nfr lsf af Hr).
      - intros row _. destruct (entries_ok complex_ops complex_ops_ok sgnR t n l r mx ls a Nfr lsf af Hr e He) as (wj & wn & m & c & G & nfr & psi & -> & Hpsi & Hm & Hc & HG & _).
        unfold entry_of. cbn [e_G e_m e_n]. unfold freq. apply tr_ok.
        eapply mat_ok_rows; [|apply tr_ok, HG]. intros x _. apply (cfilt_length complex_ops complex_ops_ok).
      - intros _. now apply (entries_labels complex_ops complex_ops_ok sgnR t n l r mx ls a Nfr lsf af Hr). }
  assert (E0 : (match a with Global => c <- be_average_global np (p_coef P0) ;; Ok (mk_path c (p_j P0) (p_n P0)) | _ => Ok P0 end)%res =
    Ok (mk_path (of_rows Real [B; 1] len0 (map padded0 rows)) [] [])).
  { unfold P0, p0, padded0, len0. destruct a; cbn [is_local_avg bind p_coef p_j p_n numpy_backend be_average_global]; [reflexivity| |reflexivity].
    rewrite map_id, np_average_of by exact R2. reflexivity. }
  rewrite E0. cbn [bind]. do 2 f_equal. rewrite <- flat_map_concat_map. reflexivity.
Qed.
End Padded.
