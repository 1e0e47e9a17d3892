(** Everything a JTFS path carries besides its coefficients, for every backend. *)
From Coq Require Import String ZArith List Bool Lia Sorted Permutation.
From Verif Require Import Base BaseProofs NdArray Backend Core1d Utils1d Frontend1d Core1dProofs Frontend1dProofs Jtfs JtfsFront.
Import ListNotations.
Local Open Scope Z_scope.
Local Open Scope res_scope.

(** A path without its coefficients. *)
Definition erase {X} (p : jpath X) : jpath unit := set_coef tt p.

Lemma erase_n {X} (p : jpath X) : q_n (erase p) = q_n p. Proof. reflexivity. Qed.
Lemma map_erase {X B} (f : jpath unit -> B) (g : jpath X -> B) : (forall p, f (erase p) = g p) ->
  forall l l', map erase l = l' -> map g l = map f l'.
Proof. intros H l l' <-. rewrite map_map. now apply map_ext. Qed.

Lemma Forall2_concat_map {A B C} (R : A -> list B -> Prop) (e : B -> C) (g : A -> list C) l ll :
  (forall a b, In a l -> R a b -> map e b = g a) -> Forall2 R l ll -> map e (concat ll) = flat_map g l.
Proof.
  intros H F. induction F as [|a b l ll Ha F IH]; [reflexivity|]. cbn [concat flat_map]. rewrite map_app.
  rewrite (H a b (or_introl eq_refl) Ha), IH; [reflexivity|]. intros; apply H; [now right|assumption].
Qed.
Lemma Forall2_map_eq {A B C} (R : A -> B -> Prop) (e : B -> C) (g : A -> C) l ll :
  (forall a b, In a l -> R a b -> e b = g a) -> Forall2 R l ll -> map e ll = map g l.
Proof.
  intros H F. induction F as [|a b l ll Ha F IH]; [reflexivity|]. cbn [map].
  rewrite (H a b (or_introl eq_refl) Ha), IH; [reflexivity|]. intros; apply H; [now right|assumption].
Qed.

(** Number of first-order scales smaller than [j2]. *)
Definition smaller {W P} (psi1 : list (filter W P)) (j2 : Z) : nat :=
  List.length (List.filter (fun f => f_j f <? j2) psi1).

Section Slots.
Context {W P : Type} (sgn : P -> Z).
Notation filter := (filter W P).

Definition slot (wj : list Z) (wn : list nat) (n1_max : Z) (npsi : nat * filter) : jpath unit :=
  mk_jpath tt wj (wn ++ [fst npsi]) n1_max (pow2 (f_j (snd npsi))) (f_j (snd npsi)) (fst npsi)
           (sgn (f_xi (snd npsi))) 0.
Definition nonneg (psis : list filter) : list filter := List.filter (fun f => 0 <=? sgn (f_xi f)) psis.

Definition slots1 (psi1 psis_fr : list filter) : list (jpath unit) :=
  map (slot [-1] [] (Z.of_nat (List.length psi1))) (enumerate (nonneg psis_fr)).
Definition slots2 (psi1 psi2 psis_fr : list filter) : list (jpath unit) :=
  flat_map (fun np2 => if Nat.ltb 0 (smaller psi1 (f_j (snd np2)))
                       then map (slot [-1; f_j (snd np2)] [fst np2] (Z.of_nat (smaller psi1 (f_j (snd np2))))) (enumerate psis_fr)
                       else []) (enumerate psi2).
Definition slots (psi1 psi2 psis_fr : list filter) : list (jpath unit) :=
  slots1 psi1 psis_fr ++ slots2 psi1 psi2 psis_fr.

Context {X : Type} (be : backend X W).

Lemma freq1_erase wp Xh ls_fr alf np q : freq1 be sgn wp Xh ls_fr alf np = Ok q ->
  erase q = slot (w_j wp) (w_n wp) (w_n1_max wp) np.
Proof. destruct np as [n psi]. unfold freq1. intros H. inv_binds H. injection H; intros <-. reflexivity. Qed.

Lemma frequency_erase phi psis ls_fr alf sp wp l : frequency_scattering be sgn phi psis ls_fr alf sp wp = Ok l ->
  map erase l = map (slot (w_j wp) (w_n wp) (w_n1_max wp)) (enumerate (if sp then psis else nonneg psis)).
Proof.
  unfold frequency_scattering. intros H. inv_binds H. apply mapM_ok in H.
  eapply Forall2_map_eq; [|exact H]. intros a b _ Hb. now apply freq1_erase in Hb.
Qed.

Lemma width2_length (psi2 : filter) ls al u l : width2 be psi2 ls al u = Ok l ->
  List.length l = if snd u <? f_j psi2 then 1%nat else 0%nat.
Proof.
  destruct u as [U j1]. unfold width2. cbn [snd]. destruct (j1 <? f_j psi2); intros H; inv_binds H; injection H; intros <-; reflexivity.
Qed.
Lemma concat_length_flag {A B} (g : A -> bool) (R : A -> list B -> Prop) l ll :
  (forall a b, R a b -> List.length b = if g a then 1%nat else 0%nat) -> Forall2 R l ll ->
  List.length (concat ll) = List.length (List.filter g l).
Proof.
  intros H F. induction F as [|a b l ll Ha F IH]; [reflexivity|]. cbn [concat List.filter].
  rewrite app_length, (H a b Ha), IH. destruct (g a); reflexivity.
Qed.

(** The stages of the width-first transform. *)
Lemma widthfirst_inv U (phi : filter) psi1 psi2 ls al p0 S1 Ys : widthfirst be U phi psi1 psi2 ls al = Ok (p0, S1, Ys) ->
  exists U0h l1 ll, be_rfft be U = Ok U0h /\ order0 be phi U U0h ls al = Ok p0 /\
    mapM (width1 be phi U0h ls al) psi1 = Ok l1 /\ be_stack be (map snd l1) 2 = Ok (w_coef S1) /\
    S1 = mk_wpath (w_coef S1) [-1] [] (Z.of_nat (List.length psi1)) /\
    mapM (width2_all be (map fst l1) ls al) (enumerate psi2) = Ok ll /\ Ys = concat ll.
Proof.
  unfold widthfirst. intros H. inv_binds H. injection H as <- <- <-. exists v, v1, v3.
  rewrite (mapM_length _ _ _ E1). repeat split; assumption.
Qed.
Lemma width1_j phi U0h ls al (psi1 : list filter) l1 : mapM (width1 be phi U0h ls al) psi1 = Ok l1 -> map (fun u => snd (fst u)) l1 = map f_j psi1.
Proof.
  intros H. apply mapM_ok in H. eapply Forall2_map_eq; [|exact H]. intros f u _ Hu. unfold width1 in Hu. inv_binds Hu.
  injection Hu; intros <-. reflexivity.
Qed.
Lemma smaller_width1 (psi1 : list filter) (l1 : list (X * Z * X)) j2 : map (fun u => snd (fst u)) l1 = map f_j psi1 ->
  List.length (List.filter (fun u : X * Z => snd u <? j2) (map fst l1)) = smaller psi1 j2.
Proof.
  unfold smaller. revert l1. induction psi1 as [|f psi1 IH]; intros [|u l1] H; try discriminate; [reflexivity|].
  injection H as H1 H2. cbn [map List.filter]. rewrite H1. destruct (f_j f <? j2); cbn [List.length]; now rewrite IH.
Qed.
Lemma width2_all_inv l1 ls al n2 (f2 : filter) (psi1 : list filter) l : map (fun u : X * Z * X => snd (fst u)) l1 = map f_j psi1 ->
  width2_all be (map fst l1) ls al (n2, f2) = Ok l ->
  if Nat.ltb 0 (smaller psi1 (f_j f2)) then
    exists Y ys, l = [mk_wpath Y [-1; f_j f2] [n2] (Z.of_nat (smaller psi1 (f_j f2)))] /\
      mapM (width2 be f2 ls al) (map fst l1) = Ok ys /\ be_stack be (concat ys) 2 = Ok Y
  else l = [].
Proof.
  intros Hj H. unfold width2_all in H. inv_bind H. pose proof (proj1 (mapM_ok _ _ _) E) as F.
  pose proof (concat_length_flag (fun u => snd u <? f_j f2) _ _ _ (fun a b Hab => width2_length f2 ls al a b Hab) F) as L.
  rewrite (smaller_width1 psi1 l1 _ Hj) in L. rewrite L in H. destruct (Nat.ltb 0 _).
  - inv_bind H. injection H; intros <-. eauto.
  - now injection H.
Qed.

Lemma joint_erase U phi psi1 psi2 ls al phi_fr psis_fr ls_fr alf p0 ps :
  joint_scattering be sgn U phi psi1 psi2 ls al phi_fr psis_fr ls_fr alf = Ok (p0, ps) ->
  p_n p0 = [] /\ p_j p0 = [] /\ map erase ps = slots psi1 psi2 psis_fr.
Proof.
  unfold joint_scattering. intros H. inv_bind H. destruct v as [[p0' S1] Ys]. inv_bind H. inv_bind H. injection H as -> <-. rename E0 into E2. rename E1 into E3.
  apply widthfirst_inv in E. destruct E as (U0h & l1 & ll & _ & E0 & E1' & _ & ES1 & ELL & ->).
  split; [|split].
  - unfold order0 in E0. destruct al; inv_binds E0; injection E0; intros <-; reflexivity.
  - unfold order0 in E0. destruct al; inv_binds E0; injection E0; intros <-; reflexivity.
  - rewrite map_app. unfold slots. f_equal.
    + apply frequency_erase in E2. rewrite E2, ES1. reflexivity.
    + pose proof (width1_j _ _ _ _ _ _ E1') as Hj. clear E2 ES1 E0 E1'.
      apply mapM_ok in ELL. apply mapM_ok in E3. unfold slots2.
      assert (G : map (fun u : X * Z * X => snd (fst u)) l1 = map f_j psi1 -> forall (l2 : list (nat * filter)) ll v1, Forall2 (fun x y => width2_all be (map fst l1) ls al x = Ok y) l2 ll ->
        Forall2 (fun x y => frequency_scattering be sgn phi_fr psis_fr ls_fr alf true x = Ok y) (concat ll) v1 ->
        map erase (concat v1) = flat_map (fun np2 => if Nat.ltb 0 (smaller psi1 (f_j (snd np2)))
                       then map (slot [-1; f_j (snd np2)] [fst np2] (Z.of_nat (smaller psi1 (f_j (snd np2))))) (enumerate psis_fr)
                       else []) l2).
      { clear. intros Hj l2 ll v1 F. revert v1. induction F as [|[n2 f2] y l2 ll Hy F IH]; intros v1 G.
        - inversion G; reflexivity.
        - cbn [flat_map fst snd]. apply (width2_all_inv _ _ _ _ _ psi1) in Hy; [|assumption].
          destruct (Nat.ltb 0 _).
          + destruct Hy as (Y & ys & -> & _). cbn [concat app] in G. inversion G as [|a b la lb Hab G']; subst.
            cbn [concat]. rewrite map_app, (IH _ G'). f_equal. apply frequency_erase in Hab. exact Hab.
          + subst y. cbn [concat app] in G. now rewrite (IH _ G). }
      exact (G Hj _ _ _ ELL E3).
Qed.
End Slots.

(** ** Averaging and formatting *)
Definition restride (ls_fr : Z) (a_fr : avg) (p : jpath unit) : jpath unit :=
  match a_fr with
  | NoAvg => p
  | Local => if q_spin p =? 0 then p else set_stride (pow2 ls_fr) p
  | Global => if q_spin p =? 0 then p else set_stride (PInt (q_n1_max p)) p
  end.
Definition label (p : jpath unit) (n1 : Z) : jpath unit :=
  set_n (Z.to_nat n1 :: q_n p) (set_order (List.length (q_n p) - 1) p).
Definition fmt (ls_fr : Z) (a_fr : avg) (format : string) (p : jpath unit) : list (jpath unit) :=
  let p := restride ls_fr a_fr p in
  if String.eqb format "joint" then [set_order (List.length (q_n p)) p]
  else if String.eqb format "time" then
    match range_step (q_n1_max p) (q_n1_stride p) with Ok r => map (label p) r | Err _ => [] end
  else [].

Section Format.
Context {X W P : Type} (be : backend X W).
Notation filter := (filter W P).

Lemma time_averaging_erase (phi : filter) ls p q : time_averaging be phi ls p = Ok q -> erase q = erase p.
Proof. unfold time_averaging. intros H. inv_binds H. injection H; intros <-. reflexivity. Qed.
Lemma frequency_averaging_erase (phi_fr : filter) ls_fr a p q : a <> NoAvg -> frequency_averaging be phi_fr ls_fr a p = Ok q ->
  erase q = set_stride (match a with Global => PInt (q_n1_max p) | _ => pow2 ls_fr end) (erase p).
Proof. intros Ha. destruct a; [| |congruence]; cbn [frequency_averaging]; intros H; inv_binds H; injection H; intros <-; reflexivity. Qed.

Lemma time_formatting_erase b (p : jpath X) l : time_formatting be b p = Ok l ->
  exists r, range_step (q_n1_max p) (q_n1_stride p) = Ok r /\ map erase l = map (label (erase p)) r.
Proof.
  unfold time_formatting. intros H. inv_bind H. inv_bind H. exists v0. split; [exact E0|].
  apply mapM_ok in H. transitivity (map (fun c => label (erase p) (snd c)) (enumerate v0)).
  - eapply Forall2_map_eq; [|exact H]. intros [i n1] y _ Hy. inv_bind Hy. injection Hy; intros <-. reflexivity.
  - rewrite <- (map_map snd (label (erase p))). unfold enumerate. now rewrite enum_from_snd.
Qed.

Lemma format_erase b (phi : filter) ls a (phi_fr : filter) ls_fr a_fr out format p l :
  format_path be b phi ls a phi_fr ls_fr a_fr out format p = Ok l -> map erase l = fmt ls_fr a_fr format (erase p).
Proof.
  unfold format_path. intros H. inv_bind H. inv_bind H. inv_bind H. inv_bind H.
  assert (E3' : erase v0 = erase p).
  { destruct a; [destruct (Nat.ltb _ _)| |].
    - apply time_averaging_erase in E0. exact E0.
    - now injection E0; intros <-.
    - inv_bind E0. now injection E0; intros <-.
    - now injection E0; intros <-. }
  assert (E4 : erase v1 = restride ls_fr a_fr (erase p)).
  { rewrite <- E3'. unfold restride. destruct a_fr; cbn [erase q_spin set_coef] in *;
      try (now injection E1; intros <-); (destruct (q_spin v0 =? 0); [now injection E1; intros <-|]);
      apply frequency_averaging_erase in E1; try congruence; exact E1. }
  assert (E5 : erase v2 = erase v1).
  { destruct (_ && _); [now injection E2; intros <-|]. inv_bind E2. now injection E2; intros <-. }
  unfold fmt. rewrite <- E4, <- E5. destruct (String.eqb format "joint").
  - injection H; intros <-. reflexivity.
  - destruct (String.eqb format "time").
    + apply time_formatting_erase in H as (r & Hr & Hl). cbn [erase q_n1_max q_n1_stride set_coef] in *. now rewrite Hr.
    + injection H; intros <-. reflexivity.
Qed.

Lemma average_and_format_erase b (phi : filter) ls a (phi_fr : filter) ls_fr a_fr out format p0 ps p0' ps' :
  average_and_format be b phi ls a phi_fr ls_fr a_fr out format (p0, ps) = Ok (p0', ps') ->
  p_n p0' = p_n p0 /\ map erase ps' = flat_map (fmt ls_fr a_fr format) (map erase ps).
Proof.
  unfold average_and_format. intros H. inv_bind H. inv_bind H. injection H as -> <-. split.
  - destruct a; inv_binds E; injection E; intros <-; reflexivity.
  - apply mapM_ok in E0. rewrite (Forall2_concat_map _ erase (fun p => fmt ls_fr a_fr format (erase p)) _ _ (fun p l _ H => format_erase _ _ _ _ _ _ _ _ _ _ _ H) E0).
    now rewrite flat_map_concat_map, flat_map_concat_map, map_map.
Qed.
End Format.

(** ** The frontend *)
Section Front.
Context {X W P : Type} (be : backend X W) (sgn : P -> Z).

Lemma bind_assoc {A B C} (m : res A) (f : A -> res B) (g : B -> res C) : bind (bind m f) g = bind m (fun a => bind (f a) g).
Proof. destruct m; reflexivity. Qed.
Lemma jfinish_erase (s : jtfs W P) a batch p q : jfinish be s a batch p = Ok q -> erase q = erase p.
Proof. unfold jfinish. intros H. inv_bind H. inv_bind H. injection H; intros <-. reflexivity. Qed.

Theorem jpaths_erase (s : jtfs W P) x p0 S : jpaths be sgn s x = Ok (p0, S) ->
  exists ls_fr a_fr, t_log2_stride_fr s = Ok ls_fr /\ t_average_fr s = Ok a_fr /\
    p_n p0 = [] /\ In (t_format s) ["time"; "joint"]%string /\
    map erase S = flat_map (fmt ls_fr a_fr (t_format s)) (slots sgn (s_psi1 (t_base s)) (s_psi2 (t_base s)) (t_psis_fr s)).
Proof.
  unfold jpaths. intros H. inv_bind H. inv_bind H. inv_bind H. destruct v1 as [batch n]. inv_bind H. inv_bind H. inv_bind H.
  inv_bind H. inv_bind H. inv_bind H. inv_bind H. destruct v7 as [q0 qs]. inv_bind H. destruct v7 as [q0' qs'].
  inv_bind H. inv_bind H. injection H as <- <-.
  exists v5, v6. split; [assumption|]. split; [assumption|].
  apply joint_erase in E8 as (H1 & _ & H2). apply average_and_format_erase in E9 as (H3 & H4). rewrite H2 in H4.
  split; [|split].
  - unfold jfinish0 in E10. inv_bind E10. inv_bind E10. injection E10; intros <-. cbn [p_n]. congruence.
  - unfold jcheck_runtime_args in E. inv_bind E. inv_bind E. unfold raise_if in E.
    destruct (String.eqb_spec (t_format s) "time") as [Ht|]; [rewrite Ht; cbn; tauto|].
    destruct (String.eqb_spec (t_format s) "joint") as [Ht|]; [rewrite Ht; cbn; tauto|discriminate].
  - rewrite <- H4. apply mapM_ok in E11. eapply Forall2_map_eq; [|exact E11]. intros a b _ Hab.
    now apply jfinish_erase in Hab.
Qed.
End Front.
