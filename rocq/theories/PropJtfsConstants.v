(** Property C92: joint time-frequency scattering is blind to the mean of the signal, except at order 0. *)
From Coq Require Import String Reals ZArith QArith List Bool Arith Lia Lra.
From Coquelicot Require Import Complex.
From Verif Require Import Base BaseProofs NdArray Backend Core1d Utils1d Utils1dProofs Frontend1d Frontend1dProofs NdProofs StackProofs Rows1d FrontRows Mats
  Factory1d FactoryProofs ComplexOps FilterBank1d FilterBank1dProofs Construct1d Shape1d PropFilters1d PropShapes1d Dft Conv1d Value1d Tabulated1d PropNumerics1d Invariance1d Stability1d Norm1d
  Jtfs JtfsFront JtfsProofs JtfsKeys JtfsRows JtfsFmt JtfsFull JtfsConstruct JtfsMeta JtfsTotal PropJtfs JtfsReady JtfsRun SpecJtfsValue JtfsValue JtfsCoef PropJtfsValues
  PropJtfsRuns JtfsParts PropJtfsBatch JtfsStability PropJtfsStability PropStability1d.
Import ListNotations.
Local Open Scope nat_scope.
Local Open Scope res_scope.

(** The time filters are those of a Scattering1D object. *)
Lemma base_constructed support p out t N : jconstructed support p out t N ->
  exists pb, constructed support (over0 pb) out (s_over0 (t_base t)) N.
Proof.
  intros (Hsup & H & EN & HN & HJ & HJf). apply new_jtfs_inv in H. destruct H as (pb & _ & _ & _ & _ & Epb & EB & _).
  exists pb. split; [exact Hsup|]. split.
  - apply new_over0; [subst pb; reflexivity|exact EB].
  - subst pb. cbn. split; [exact EN|]. lia.
Qed.
Lemma base_zero_mean support p out t N f : jconstructed support p out t N -> In f (s_psi1 (t_base t)) ->
  at_ (lev f 0) 0 = RtoC 0 /\ List.length (lev f 0) = padded_length (t_base t) N.
Proof.
  intros Hc Hf. destruct (base_constructed _ _ _ _ _ Hc) as (pb & Hb).
  destruct (psi_zero_mean _ _ _ _ _ f Hb (or_introl Hf)) as [E L]. split; [exact E|exact L].
Qed.
Lemma base_phi support p out t N : jconstructed support p out t N ->
  List.length (lev (s_phi (t_base t)) 0) = padded_length (t_base t) N /\ 0 < padded_length (t_base t) N /\
  exists b, at_ (lev (s_phi (t_base t)) 0) 0 = RtoC b /\ (0 < b)%R.
Proof.
  intros Hc. destruct (base_constructed _ _ _ _ _ Hc) as (pb & Hb). destruct (phi_l1 _ _ _ _ _ Hb) as (_ & L & HN & Hp). split; [exact L|]. split; [exact HN|exact Hp].
Qed.

Section Parts.
Variables (t : jtfs (nd C) R) (n l r mx : nat) (ls : Z) (a : avg) (Nfr : nat) (lsf : Z) (af : avg).
Hypothesis (Hr : jready sgnR t n l r mx ls a Nfr lsf af).
Notation b := (t_base t).
Notation N := (l + n + r).
Notation ds := (all_parts t n l r ls a Nfr lsf af).
Hypothesis (Hmean : forall f, In f (s_psi1 b) -> at_ (lev f 0) 0 = RtoC 0 /\ List.length (lev f 0) = N).

Lemma rows_add_const c x : List.length x = N ->
  rows1 (s_phi b) (s_psi1 b) ls a (map (Cplus c) x) = rows1 (s_phi b) (s_psi1 b) ls a x /\
  forall f2, rows2 (s_psi1 b) ls a f2 (map (Cplus c) x) = rows2 (s_psi1 b) ls a f2 x.
Proof.
  intros Hx. assert (E : forall f1, In f1 (s_psi1 b) -> U1 ls a f1 (map (Cplus c) x) = U1 ls a f1 x).
  { intros f1 H1. destruct (Hmean f1 H1) as [H0 HL]. unfold U1. apply envelope_zero_mean; congruence. }
  split; [|intros f2]; [unfold rows1|unfold rows2]; apply map_ext_in; intros f1 H1; [|apply filter_In in H1 as [H1 _]]; now rewrite E.
Qed.
Lemma part_add_const d c row : t_format t = "joint"%string \/ t_format t = "time"%string -> In d ds -> List.length row = n ->
  concat (d_gen d (map (Cplus c) row)) = concat (d_gen d row).
Proof.
  intros Hf Hd Hrow. pose proof (all_parts_ok t n l r mx ls a Nfr lsf af Hr Hf) as Hok. rewrite Forall_forall in Hok. specialize (Hok d Hd).
  assert (Hrow' : List.length (map (Cplus c) row) = n) by now rewrite map_length.
  assert (HL : forall z, List.length z = n -> List.length (concat (d_gen d z)) = prod (d_suf d)).
  { intros z Hz. destruct (Hok z Hz) as [D1 D2]. rewrite (concat_len (d_len d)) by exact D2. unfold d_suf. rewrite prod_snoc, D1. reflexivity. }
  apply list_ext; [rewrite !HL by assumption; reflexivity|]. rewrite HL by exact Hrow'. intros u Hu.
  destruct (part_sample n d row u Hok Hrow Hu) as (Q1 & Q2 & ->). destruct (part_sample n d _ u Hok Hrow' Hu) as (_ & _ & ->).
  destruct (part_value t n l r mx ls a Nfr lsf af Hr d Hf Hd) as (psi & j2 & G & cc & m & r0 & st & Hsrc & _ & _ & _ & V). rewrite !V by assumption.
  rewrite pad_map by first [assumption | apply (jr_l _ _ _ _ _ _ _ _ _ _ _ Hr) | apply (jr_r _ _ _ _ _ _ _ _ _ _ _ Hr)].
  assert (Lp : List.length (pad_reflect_row complex_ops l r n row) = N) by apply pad_row_length.
  destruct (rows_add_const c _ Lp) as [E1 E2].
  assert (EG : G (map (Cplus c) (pad_reflect_row complex_ops l r n row)) = G (pad_reflect_row complex_ops l r n row)) by (destruct Hsrc; [exact E1|apply E2]).
  now rewrite EG.
Qed.
Lemma part0_add_const c k row : List.length (lev (s_phi b) 0) = N -> at_ (lev (s_phi b) 0) 0 = RtoC k -> List.length row = n ->
  concat (d_gen (part0 t n l r ls a) (map (Cplus (RtoC c)) row)) =
  map (Cplus (RtoC (c * match a with Local => k | Global => INR N | NoAvg => 1 end))) (concat (d_gen (part0 t n l r ls a) row)).
Proof.
  intros HL Hk Hrow. cbn [part0 d_gen concat]. rewrite !app_nil_r. pose proof (jr_time _ _ _ _ _ _ _ _ _ _ _ Hr) as HT. pose proof (jt_ls _ _ _ _ _ _ HT) as Hls.
  pose proof (jt_N _ _ _ _ _ _ HT) as HN. unfold zeroth.
  rewrite pad_map by first [assumption | apply (jr_l _ _ _ _ _ _ _ _ _ _ _ Hr) | apply (jr_r _ _ _ _ _ _ _ _ _ _ _ Hr)].
  destruct a.
  - rewrite !r_low_spec by first [assumption | apply (jt_phi _ _ _ _ _ _ HT); reflexivity | apply (jt_div _ _ _ _ _ _ HT) | rewrite ?map_length; apply pad_row_length].
    rewrite (lowpass_const c k) by (rewrite ?pad_row_length; assumption). apply slice_map.
  - cbn [map]. f_equal. rewrite !osum_at, map_length, pad_row_length.
    rewrite (csum_ext _ _ (fun u => RtoC c + at_ (pad_reflect_row complex_ops l r n row) u)%C).
    + rewrite csum_plus. f_equal. rewrite (rsum_csum _ (fun _ => c)), rsum_const. f_equal. ring.
    + intros u Hu. apply at_map_C. now rewrite pad_row_length.
  - rewrite Rmult_1_r. apply slice_map.
Qed.
(** A constant signal. *)
Lemma part_constant d c : t_format t = "joint"%string \/ t_format t = "time"%string -> In d ds ->
  forall u, at_ (concat (d_gen d (repeat c n))) u = RtoC 0.
Proof.
  intros Hf Hd u. assert (E : repeat c n = map (Cplus c) (map (Cmult (RtoC 0)) (repeat c n))).
  { rewrite map_map. clear. induction n as [|m IH]; [reflexivity|]. cbn [repeat map]. rewrite <- IH. f_equal. ring. }
  rewrite E, part_add_const by (rewrite ?map_length, ?repeat_length; first [assumption|reflexivity]).
  rewrite (part_scal t n l r mx ls a Nfr lsf af Hr) by (rewrite ?repeat_length; first [assumption|reflexivity]). rewrite at_scal, Rabs_R0. ring.
Qed.
End Parts.

Lemma concat_concat_map {A B} (g : A -> list (list B)) l : concat (concat (map g l)) = concat (map (fun x => concat (g x)) l).
Proof. induction l as [|x l IH]; [reflexivity|]. cbn [map concat]. now rewrite concat_app, IH. Qed.

(** ** C92 *)
(** With a single sample the first-order wavelets are 0/0 in the code (C111), hence [2 <= N]. *)
(** [y] is [x] with the constant [c i] added to its i-th signal: nothing changes but the order 0, by a positive multiple of [c i]. *)
Theorem C92_mean_removed : forall support p out t N batch x y (c : nat -> R) p0 S ls a lsf af,
  jconstructed support p out t N -> (2 <= N)%Z -> modes t ls a lsf af -> nd_wf x -> nd_shape x = batch ++ [Z.to_nat N] -> 0 < prod batch -> jpaths np sgnR t x = Ok (p0, S) ->
  nd_wf y -> nd_dtype y = Real -> nd_shape y = nd_shape x ->
  (forall i u, i < prod batch -> u < Z.to_nat N -> at_ (signal (Z.to_nat N) i y) u = (RtoC (c i) + at_ (signal (Z.to_nat N) i x) u)%C) ->
  exists p0' S', jpaths np sgnR t y = Ok (p0', S') /\
    Forall2 (fun q q' => erase q' = erase q /\ q_coef q' = q_coef q) S S' /\
    exists b L, (0 < b)%R /\ nd_shape (p_coef p0) = batch ++ [L] /\ nd_shape (p_coef p0') = batch ++ [L] /\
      forall i u, i < prod batch -> u < L -> at_ (signal L i (p_coef p0')) u = (RtoC (c i * b) + at_ (signal L i (p_coef p0)) u)%C.
Proof.
  intros support p out t N batch x y c p0 S ls a lsf af Hc _ Hm Hw Hsh Hb HS Hwy Hdy Hsy Hadd. pose proof Hc as (_ & _ & _ & HN & _).
  destruct (run_all_parts _ _ _ _ _ _ _ _ _ _ _ _ _ Hc Hm Hw Hsh Hb HS) as (l & r & mx & rows & Hr & ENp & Hf & _ & Ex & R & Hrun).
  rewrite Hsh in Hsy. destruct (of_rows_intro y batch (Z.to_nat N) Hwy Hsy) as (rows' & Ey & R'). rewrite Hdy in Ey.
  pose proof (Hrun batch rows R) as E. rewrite <- Ex, HS in E. injection E as -> ->. cbn [p_coef].
  pose proof (Hrun batch rows' R') as Hy. rewrite <- Ey in Hy. eexists _, _. split; [exact Hy|]. cbn [p_coef].
  assert (Erow : forall i, i < prod batch -> nth i rows' [] = map (Cplus (RtoC (c i))) (nth i rows [])).
  { intros i Hi. assert (Exi : signal (Z.to_nat N) i x = nth i rows []) by (rewrite Ex; now apply signal_of with (pre := batch)).
    assert (Eyi : signal (Z.to_nat N) i y = nth i rows' []) by (rewrite Ey; now apply signal_of with (pre := batch)).
    pose proof (signal_row _ _ _ _ R Hi) as Lx. pose proof (signal_row _ _ _ _ R' Hi) as Ly.
    apply list_ext; [rewrite map_length; congruence|]. rewrite Ly. intros u Hu. rewrite at_map_C by (rewrite Lx; exact Hu).
    rewrite <- Exi, <- Eyi. now apply Hadd. }
  assert (Hmean : forall f, In f (s_psi1 (t_base t)) -> at_ (lev f 0) 0 = RtoC 0 /\ List.length (lev f 0) = l + Z.to_nat N + r).
  { intros f Hin. rewrite <- ENp. eapply base_zero_mean; eassumption. }
  split.
  - apply parts_Forall2. intros d Hd. split; [reflexivity|]. change (coef_of batch rows' d = coef_of batch rows d).
    unfold coef_of, of_rows. f_equal. rewrite !concat_concat_map. f_equal.
    pose proof (proj1 R) as L1. pose proof (proj1 R') as L2.
    apply nth_ext with (d := []) (d' := []); [rewrite !map_length; congruence|]. rewrite map_length, L2. intros i Hi.
    rewrite !(nth_map_any _ _ _ _ []) by congruence. rewrite Erow by exact Hi.
    eapply part_add_const; try eassumption. eapply signal_row; eassumption.
  - destruct (base_phi _ _ _ _ _ Hc) as (HLp & HNp & b & Eb & Hb0). rewrite ENp in *.
    pose proof (part0_ok t (Z.to_nat N) l r mx ls a (bins t) lsf af Hr) as H0.
    exists (match a with Local => b | Global => INR (l + Z.to_nat N + r) | NoAvg => 1%R end), (d_len (part0 t (Z.to_nat N) l r ls a)).
    split; [destruct a; [exact Hb0|now apply lt_0_INR|lra]|]. rewrite !coef_shape. split; [reflexivity|]. split; [reflexivity|]. intros i u Hi Hu.
    assert (Es : prod (d_suf (part0 t (Z.to_nat N) l r ls a)) = d_len (part0 t (Z.to_nat N) l r ls a)) by (unfold d_suf; cbn [part0 d_pre d_len app prod fold_right]; lia).
    rewrite <- Es in *. rewrite !(coef_signal (Z.to_nat N)) by assumption. rewrite Erow by exact Hi.
    pose proof (signal_row _ _ _ _ R Hi) as Lx.
    rewrite (part0_add_const t (Z.to_nat N) l r mx ls a (bins t) lsf af Hr (c i) b) by assumption. apply at_map_C.
    destruct (H0 _ Lx) as [D1 D2]. rewrite (concat_len (d_len (part0 t (Z.to_nat N) l r ls a))) by exact D2. rewrite D1. rewrite <- Es. cbn [part0 d_pre prod fold_right]. lia.
Qed.
Print Assumptions C92_mean_removed.

(** A signal of the batch that is constant has zero coefficients on every path. *)
Theorem C92_constant_signal : forall support p out t N batch x p0 S ls a lsf af i (c : C),
  jconstructed support p out t N -> (2 <= N)%Z -> modes t ls a lsf af -> nd_wf x -> nd_shape x = batch ++ [Z.to_nat N] -> 0 < prod batch -> jpaths np sgnR t x = Ok (p0, S) ->
  i < prod batch -> (forall u, u < Z.to_nat N -> at_ (signal (Z.to_nat N) i x) u = c) ->
  Forall (fun q => exists suf, nd_shape (q_coef q) = batch ++ suf /\ forall u, u < prod suf -> at_ (signal (prod suf) i (q_coef q)) u = RtoC 0) S.
Proof.
  intros support p out t N batch x p0 S ls a lsf af i c Hc _ Hm Hw Hsh Hb HS Hi Hx.
  destruct (run_all_parts _ _ _ _ _ _ _ _ _ _ _ _ _ Hc Hm Hw Hsh Hb HS) as (l & r & mx & rows & Hr & ENp & Hf & _ & Ex & R & Hrun).
  pose proof (Hrun batch rows R) as E. rewrite <- Ex, HS in E. injection E as -> ->.
  assert (Exi : signal (Z.to_nat N) i x = nth i rows []) by (rewrite Ex; now apply signal_of with (pre := batch)).
  pose proof (signal_row _ _ _ _ R Hi) as Lx.
  assert (Er : nth i rows [] = repeat c (Z.to_nat N)).
  { apply list_ext; [now rewrite repeat_length|]. rewrite Lx. intros u Hu. rewrite at_repeat_C by exact Hu. rewrite <- Exi. now apply Hx. }
  assert (Hmean : forall f, In f (s_psi1 (t_base t)) -> at_ (lev f 0) 0 = RtoC 0 /\ List.length (lev f 0) = l + Z.to_nat N + r).
  { intros f Hin. rewrite <- ENp. eapply base_zero_mean; eassumption. }
  pose proof (all_parts_ok t (Z.to_nat N) l r mx ls a (bins t) lsf af Hr Hf) as Hok. rewrite Forall_forall in Hok.
  apply Forall_forall. intros q Hq. apply in_map_iff in Hq as (d & <- & Hd). exists (d_suf d). change (q_coef (path_of batch rows d)) with (coef_of batch rows d).
  rewrite coef_shape. split; [reflexivity|]. intros u Hu. rewrite (coef_signal (Z.to_nat N)) by auto. rewrite Er. eapply part_constant; eassumption.
Qed.
Print Assumptions C92_constant_signal.

(** Three signals, the first of which gets the constant 2, the second -1; and three constant signals. *)
Example C92_instance : forall N format, (4 <= N)%Z -> In format ["joint"; "time"]%string ->
  let n := Z.to_nat N in
  let x := mk_nd Real [3; n] (map (fun i => RtoC (INR i)) (seq 0 (3 * n))) in
  let c i := match i with 0 => 2%R | 1 => (-1)%R | _ => 0%R end in
  let y := mk_nd Real [3; n] (map (fun k => (RtoC (c (k / n)%nat) + RtoC (INR k))%C) (seq 0 (3 * n))) in
  let z := mk_nd Real [3; n] (map (fun k => RtoC (c (k / n))) (seq 0 (3 * n))) in
  exists t p0 S p0' S' p0z Sz, jconstructed (fun _ _ => 1%Z) (default_jparams 2 N 8 1 TNone format) "list" t N /\
    jpaths np sgnR t x = Ok (p0, S) /\ S <> [] /\ jpaths np sgnR t y = Ok (p0', S') /\ map q_coef S' = map q_coef S /\
    jpaths np sgnR t z = Ok (p0z, Sz) /\ List.length Sz = List.length S /\
    Forall (fun q => exists suf, nd_shape (q_coef q) = [3] ++ suf /\ forall u, u < prod suf -> at_ (signal (prod suf) 1 (q_coef q)) u = RtoC 0) Sz.
Proof.
  intros N format HN Hf n x c y z. destruct (C88_C89_instance N format HN Hf) as (t & p0 & S & ls & a & lsf & af & _ & _ & _ & _ & _ & _ & Ht & Hm & Hw & HS & Hne & _).
  fold n in Hw, HS. fold x in Hw, HS. assert (Hn : 0 < n) by (unfold n; lia).
  assert (Sg : forall (f : nat -> C) i u, i < 3 -> u < n -> at_ (signal n i (mk_nd Real [3; n] (map f (seq 0 (3 * n))))) u = f (i * n + u)).
  { intros f i u Hi Hu. assert (i * n + u < 3 * n) by nia. unfold signal, at_. cbn [nd_data]. rewrite PropStability1d.nth_firstn_lt by exact Hu. rewrite PropStability1d.nth_skipn_at.
    rewrite (nth_map_any _ _ _ _ 0) by (rewrite seq_length; lia). rewrite seq_nth by lia. reflexivity. }
  assert (Ei : forall i u, u < n -> (i * n + u) / n = i) by (intros i u Hu; rewrite Nat.add_comm, Nat.div_add, Nat.div_small by lia; lia).
  assert (Wy : nd_wf y) by (unfold nd_wf, y; cbn [nd_data nd_shape prod fold_right]; rewrite map_length, seq_length; lia).
  assert (Wz : nd_wf z) by (unfold nd_wf, z; cbn [nd_data nd_shape prod fold_right]; rewrite map_length, seq_length; lia).
  destruct (C92_mean_removed _ _ _ _ _ [3] x y c _ _ _ _ _ _ Ht ltac:(lia) Hm Hw eq_refl ltac:(cbn; lia) HS Wy eq_refl eq_refl) as (p0' & S' & HS' & F & _).
  { intros i u Hi Hu. cbn in Hi. fold n in Hu |- *. unfold x, y. rewrite !Sg by (first [exact Hu|lia]). now rewrite Ei by exact Hu. }
  destruct (run_all_parts _ _ _ _ _ [3] _ _ _ _ _ _ _ Ht Hm Hw eq_refl ltac:(cbn; lia) HS) as (l & r & mx & rows & _ & _ & _ & _ & Ex & R & Hrun).
  destruct (of_rows_intro z [3] n Wz eq_refl) as (rz & Ez & Rz). change (nd_dtype z) with Real in Ez.
  pose proof (Hrun [3] rz Rz) as HSz. fold n in HSz. rewrite <- Ez in HSz.
  pose proof (Hrun [3] rows R) as E. rewrite <- Ex, HS in E. injection E as _ ES.
  eexists t, p0, S, p0', S', _, _. split; [exact Ht|]. split; [exact HS|]. split; [exact Hne|]. split; [exact HS'|].
  split; [clear - F; induction F as [|q q' k k' [_ E] F IH]; [reflexivity|]; cbn [map]; now rewrite E, IH|]. split; [exact HSz|].
  split; [rewrite ES, !map_length; reflexivity|].
  apply (C92_constant_signal _ _ _ _ _ [3] z _ _ _ _ _ _ 1 (RtoC (-1)) Ht ltac:(lia) Hm Wz eq_refl ltac:(cbn; lia) HSz ltac:(cbn; lia)).
  intros u Hu. fold n in Hu |- *. unfold z. rewrite Sg by (first [exact Hu|lia]). now rewrite Ei by exact Hu.
Qed.
