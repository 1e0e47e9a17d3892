(** The dry run of meta() succeeds whenever the computation with some backend does. *)
From Coq Require Import String ZArith List Bool Lia.
From Verif Require Import Base BaseProofs NdArray Backend Core1d Utils1d Frontend1d Core1dProofs Frontend1dProofs Jtfs JtfsFront
  JtfsProofs SpecJtfs JtfsKeys.
Import ListNotations.
Local Open Scope Z_scope.
Local Open Scope res_scope.

Lemma erase_unit (p : jpath unit) : erase p = p.
Proof. destruct p as [[] ? ? ? ? ? ? ? ?]. reflexivity. Qed.
Lemma map_erase_unit l : map erase l = l.
Proof. induction l as [|p l IH]; [reflexivity|]. cbn [map]. now rewrite erase_unit, IH. Qed.

(** [mapM] succeeds when every call does. *)
Lemma mapM_total {A B} (f : A -> res B) l : (forall x, In x l -> exists y, f x = Ok y) -> exists r, mapM f l = Ok r.
Proof.
  induction l as [|x l IH]; intros H; cbn [mapM]; [eauto|].
  destruct (H x (or_introl eq_refl)) as (y & ->). destruct IH as (r & ->); [intros; apply H; now right|]. cbn [bind]. eauto.
Qed.
Lemma mapM_each {A B} (f : A -> res B) l r x : mapM f l = Ok r -> In x l -> exists y, f x = Ok y.
Proof. intros H Hx. apply mapM_ok in H. destruct (Forall2_In_l _ _ _ _ H Hx) as (y & _ & E). eauto. Qed.

Section Dry.
Context {X W P : Type} (be : backend X W) (sgn : P -> Z).
Notation filter := (filter W P).
Notation dry := (dry_backend W).

Ltac dry := cbn [bind dry_backend be_rfft be_cfft be_irfft be_ifft be_cdgmm be_subsample be_modulus be_average_global be_swap
                 be_pad_frequency be_stack be_unpad_frequency].

Ltac lk := dry; repeat (match goal with E : py_index _ _ = Ok _ |- _ => rewrite E end; dry).
Lemma order0_dry (phi : filter) U Uh ls al p : order0 be phi U Uh ls al = Ok p ->
  order0 dry phi tt tt ls al = Ok (mk_path tt (p_j p) (p_n p)).
Proof.
  unfold order0. destruct al; intros H.
  - inv_binds H. injection H; intros <-. lk. reflexivity.
  - injection H; intros <-. reflexivity.
Qed.
Lemma width1_dry (phi : filter) Uh ls al (f : filter) r : width1 be phi Uh ls al f = Ok r ->
  width1 dry phi tt ls al f = Ok (tt, f_j f, tt).
Proof.
  unfold width1, order1_modulus. intros H. inv_binds H. inv_binds E. lk. reflexivity.
Qed.
Lemma width2_dry (f : filter) ls al u j r : width2 be f ls al (u, j) = Ok r -> width2 dry f ls al (tt, j) = Ok (map (fun _ => tt) r).
Proof.
  unfold width2. destruct (j <? f_j f); intros H; inv_binds H; injection H; intros <-; [|reflexivity]. rewrite E. dry. reflexivity.
Qed.
Lemma freq1_dry wp wp' Xh ls_fr alf np q : w_j wp' = w_j wp -> w_n wp' = w_n wp -> w_n1_max wp' = w_n1_max wp ->
  freq1 be sgn wp Xh ls_fr alf np = Ok q -> freq1 dry sgn wp' tt ls_fr alf np = Ok (erase q).
Proof.
  intros E1 E2 E3. destruct np as [n psi]. unfold freq1. intros H. inv_binds H. injection H; intros <-. rewrite E. dry.
  unfold erase, set_coef. cbn [q_j q_n q_n1_max q_n1_stride q_j_fr q_n_fr q_spin q_order]. now rewrite E1, E2, E3.
Qed.
Definition werase (w : wpath X) : wpath unit := mk_wpath tt (w_j w) (w_n w) (w_n1_max w).
Lemma mapM_dry {A B C D} (f : A -> res B) (f' : C -> res D) (a : A -> C) (b : B -> D) l r :
  (forall x y, f x = Ok y -> f' (a x) = Ok (b y)) -> mapM f l = Ok r -> mapM f' (map a l) = Ok (map b r).
Proof.
  intros H E. apply mapM_ok. apply mapM_ok in E. induction E as [|x y l r Hxy E IH]; constructor; auto.
Qed.
Lemma frequency_dry phi psis ls_fr alf sp wp l : frequency_scattering be sgn phi psis ls_fr alf sp wp = Ok l ->
  frequency_scattering dry sgn phi psis ls_fr alf sp (werase wp) = Ok (map erase l).
Proof.
  unfold frequency_scattering. intros H. inv_binds H. dry.
  replace (if sp then Ok tt else Ok tt) with (@Ok unit tt) by (destruct sp; reflexivity). dry.
  rewrite <- (map_id (enumerate _)). eapply mapM_dry; [|exact H]. intros x y Hxy. eapply freq1_dry; [..|exact Hxy]; reflexivity.
Qed.
Lemma width2_all_dry us ls al (np2 : nat * filter) l : width2_all be us ls al np2 = Ok l ->
  width2_all dry (map (fun u : X * Z => (tt, snd u)) us) ls al np2 = Ok (map werase l).
Proof.
  destruct np2 as [n2 f2]. unfold width2_all. intros H. inv_bind H.
  rewrite (mapM_dry _ (width2 dry f2 ls al) (fun u : X * Z => (tt, snd u)) (map (fun _ => tt)) _ _
             (fun x y => match x with (u, j) => width2_dry f2 ls al u j y end) E). dry.
  assert (L : List.length (concat (map (map (fun _ : X => tt)) v)) = List.length (concat v)).
  { rewrite <- concat_map, map_length. reflexivity. }
  rewrite L. destruct (Nat.ltb 0 _); inv_binds H; injection H; intros <-; reflexivity.
Qed.
Lemma joint_dry U phi psi1 psi2 ls al phi_fr psis_fr ls_fr alf p0 ps :
  joint_scattering be sgn U phi psi1 psi2 ls al phi_fr psis_fr ls_fr alf = Ok (p0, ps) ->
  joint_scattering dry sgn tt phi psi1 psi2 ls al phi_fr psis_fr ls_fr alf = Ok (mk_path tt (p_j p0) (p_n p0), map erase ps).
Proof.
  unfold joint_scattering. intros H. inv_bind H. destruct v as [[p0' S1] Ys]. inv_bind H. inv_bind H. injection H as -> <-.
  unfold widthfirst in *. inv_binds E. injection E as -> <- <-. dry. rewrite (order0_dry _ _ _ _ _ _ E3). dry.
  rewrite <- (map_id psi1). erewrite mapM_dry with (b := fun r : X * Z * X => (tt, snd (fst r), tt)); [| |exact E4].
  2:{ intros f r Hr. rewrite (width1_dry _ _ _ _ _ _ Hr). unfold width1 in Hr. inv_binds Hr. injection Hr; intros <-. reflexivity. }
  dry.
  assert (M : mapM (width2_all dry (map fst (map (fun r : X * Z * X => (tt, snd (fst r), tt)) v3)) ls al) (enumerate psi2) = Ok (map (map werase) v5)).
  { rewrite map_map. cbn [fst]. rewrite <- (map_id (enumerate psi2)). eapply mapM_dry; [|exact E6]. intros np2 l Hl.
    apply width2_all_dry in Hl. rewrite map_map in Hl. exact Hl. }
  rewrite M. dry. rewrite map_length.
  pose proof (frequency_dry _ _ _ _ _ _ _ E0) as F1. unfold werase in F1. cbn [w_j w_n w_n1_max] in F1. rewrite F1. dry.
  rewrite <- concat_map. erewrite mapM_dry; [|intros x y; apply frequency_dry|exact E1]. dry.
  now rewrite map_app, concat_map.
Qed.

Lemma time_formatting_dry (p : jpath X) l : 0 <= q_n1_max p -> time_formatting be false p = Ok l ->
  time_formatting dry true (erase p) = Ok (map erase l).
Proof.
  intros Hm. unfold time_formatting. intros H. inv_bind H. inv_bind H. cbn [erase set_coef q_n1_stride q_n1_max q_coef q_n].
  pose proof E0 as E0'. unfold range_step in E0'. destruct (q_n1_stride p) as [k|]; [|discriminate]. cbn [range_step] in E0'.
  destruct (Z.eqb_spec k 0); [discriminate|]. cbn [bind]. rewrite E0. cbn [bind].
  apply mapM_ok. apply mapM_ok in H.
  assert (Hlen : Z.of_nat (List.length v0) <= Z.max 0 (1 + q_n1_max p / k)).
  { destruct (Z.ltb_spec k 0); injection E0'; intros <-; cbn [List.length]; [lia|].
    rewrite map_length, seq_length. pose proof (Z.div_mod (q_n1_max p + k - 1) k ltac:(lia)). pose proof (Z.mod_pos_bound (q_n1_max p + k - 1) k ltac:(lia)).
    pose proof (Z.div_mod (q_n1_max p) k ltac:(lia)). pose proof (Z.mod_pos_bound (q_n1_max p) k ltac:(lia)).
    assert ((q_n1_max p + k - 1) / k <= 1 + q_n1_max p / k) by nia. lia. }
  clear E0 E0' E. unfold enumerate in *.
  assert (G : forall i n1, In (i, n1) (enum_from 0 v0) -> (i < List.length v0)%nat).
  { intros i n1 Hi. apply (proj1 (In_enumerate v0 i n1)) in Hi. apply nth_error_Some. congruence. }
  induction H as [|[i n1] q l0 l' Hq F IH]; [constructor|].
  cbn [map]. constructor; [|apply IH; intros; eapply G; right; eassumption].
  inv_bind Hq. injection Hq; intros <-. pose proof (G i n1 (or_introl eq_refl)) as Hi.
  assert (Hi' : (i < Z.to_nat (1 + q_n1_max p / k))%nat) by lia.
  unfold py_index. rewrite !(proj2 (Z.ltb_ge (Z.of_nat i) 0)) by lia. rewrite Nat2Z.id.
  rewrite (nth_error_nth' _ tt) by (rewrite repeat_length; exact Hi'). cbn [bind].
  destruct (nth i _ tt). reflexivity.
Qed.
Lemma format_dry (phi : filter) ls a (phi_fr : filter) ls_fr a_fr out format p l : 0 <= q_n1_max p ->
  format_path be false phi ls a phi_fr ls_fr a_fr out format p = Ok l ->
  format_path dry true phi ls a phi_fr ls_fr a_fr out format (erase p) = Ok (map erase l).
Proof.
  intros Hm. unfold format_path. intros H. inv_bind H. inv_bind H. inv_bind H. inv_bind H.
  cbn [be_modulus dry_backend bind].
  assert (A1 : (match a with
        | Global => c <- be_average_global dry (q_coef (set_coef tt (erase p))) ;; Ok (set_coef c (set_coef tt (erase p)))
        | Local => if Nat.ltb 1 (List.length (q_n (set_coef tt (erase p)))) then time_averaging dry phi ls (set_coef tt (erase p)) else Ok (set_coef tt (erase p))
        | NoAvg => Ok (set_coef tt (erase p))
        end) = Ok (erase v0)).
  { destruct a.
    - cbn [q_n set_coef erase] in *. destruct (Nat.ltb 1 _).
      + unfold time_averaging in *. cbn [q_j set_coef] in *. inv_binds E0. injection E0; intros <-. change (q_j (erase p)) with (q_j p). lk. reflexivity.
      + injection E0; intros <-. reflexivity.
    - inv_binds E0. injection E0; intros <-. reflexivity.
    - injection E0; intros <-. reflexivity. }
  rewrite A1. cbn [bind].
  assert (M0 : q_n1_max v0 = q_n1_max p).
  { destruct a; [destruct (Nat.ltb _ _)| |]; [unfold time_averaging in E0|..]; inv_binds E0; injection E0; intros <-; reflexivity. }
  assert (A2 : (match a_fr with
        | NoAvg => Ok (erase v0)
        | _ => if q_spin (erase v0) =? 0 then Ok (erase v0) else frequency_averaging dry phi_fr ls_fr a_fr (erase v0)
        end) = Ok (erase v1)).
  { destruct a_fr; cbn [q_spin erase set_coef] in *.
    - destruct (q_spin v0 =? 0); [now injection E1; intros <-|]. cbn [frequency_averaging] in *. inv_binds E1. injection E1; intros <-.
      cbn [q_j_fr q_coef set_coef]. change (q_j_fr (erase v0)) with (q_j_fr v0). lk. reflexivity.
    - destruct (q_spin v0 =? 0); [now injection E1; intros <-|]. cbn [frequency_averaging] in *. inv_binds E1. injection E1; intros <-. reflexivity.
    - now injection E1; intros <-. }
  rewrite A2. cbn [bind].
  assert (M1 : q_n1_max v1 = q_n1_max v0).
  { destruct a_fr; [destruct (_ =? 0)|destruct (_ =? 0)|]; cbn [frequency_averaging] in E1; inv_binds E1; injection E1; intros <-; reflexivity. }
  assert (A3 : (if String.eqb out "array" && String.eqb format "joint" then Ok (erase v1)
        else c <- be_unpad_frequency dry (q_coef (erase v1)) (q_n1_max (erase v1)) (q_n1_stride (erase v1)) ;; Ok (set_coef c (erase v1))) = Ok (erase v2)).
  { destruct (_ && _); [now injection E2; intros <-|]. inv_bind E2. injection E2; intros <-. reflexivity. }
  rewrite A3. cbn [bind].
  assert (M2 : q_n1_max v2 = q_n1_max v1) by (destruct (_ && _); inv_binds E2; injection E2; intros <-; reflexivity).
  destruct (String.eqb format "joint"); [injection H; intros <-; reflexivity|].
  destruct (String.eqb format "time"); [|injection H; intros <-; reflexivity].
  apply time_formatting_dry; [lia|assumption].
Qed.
Lemma average_and_format_dry (phi : filter) ls a (phi_fr : filter) ls_fr a_fr out format p0 ps p0' ps' :
  Forall (fun p => 0 <= q_n1_max p) ps ->
  average_and_format be false phi ls a phi_fr ls_fr a_fr out format (p0, ps) = Ok (p0', ps') ->
  average_and_format dry true phi ls a phi_fr ls_fr a_fr out format (mk_path tt (p_j p0) (p_n p0), map erase ps) =
    Ok (mk_path tt (p_j p0') (p_n p0'), map erase ps').
Proof.
  intros Hm. unfold average_and_format. intros H. inv_bind H. inv_bind H. injection H as -> <-.
  assert (A : (match a with
         | Global => c <- be_average_global dry (p_coef (mk_path tt (p_j p0) (p_n p0))) ;; Ok (mk_path c (p_j (mk_path tt (p_j p0) (p_n p0))) (p_n (mk_path tt (p_j p0) (p_n p0))))
         | _ => Ok (mk_path tt (p_j p0) (p_n p0))
         end) = Ok (mk_path tt (p_j p0') (p_n p0'))).
  { destruct a; inv_binds E; injection E; intros <-; reflexivity. }
  rewrite A. cbn [bind]. apply mapM_ok in E0.
  assert (M : mapM (format_path dry true phi ls a phi_fr ls_fr a_fr out format) (map erase ps) = Ok (map (map erase) v0)).
  { apply mapM_ok. clear -E0 Hm. induction E0 as [|p l ps v0 Hp F IH]; [constructor|]. inversion Hm; subst. constructor; [now apply format_dry|now apply IH]. }
  rewrite M. cbn [bind]. now rewrite concat_map.
Qed.
End Dry.
