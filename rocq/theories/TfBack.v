(** The converse of the refinement of TfInst: whenever a TensorFlow operation returns on a tensor without an empty axis,
    the NumPy operation returns the same array.  TensorFlow therefore raises whenever NumPy raises. *)
From Coq Require Import String Reals ZArith List Bool Arith Lia.
From Coquelicot Require Import Complex.
From Verif Require Import Base BaseProofs NdArray NdProofs Backend Core1d Utils1d Frontend1d ComplexOps Jtfs JtfsFront Torch1d Tf1d TfJtfs.
Import ListNotations.
Local Open Scope nat_scope.
Local Open Scope res_scope.

(** ** Outcomes of which the second returns only if the first does *)
Definition back {A B} (m : B -> A) (Q : B -> Prop) (r : res A) (r' : res B) : Prop := forall t, r' = Ok t -> r = Ok (m t) /\ Q t.
Lemma back_ok {A B} (m : B -> A) (Q : B -> Prop) t : Q t -> back m Q (Ok (m t)) (Ok t).
Proof. intros H u [= <-]. now split. Qed.
Lemma back_err {A B} (m : B -> A) (Q : B -> Prop) r e : back m Q r (Err e).
Proof. intros u [=]. Qed.
Lemma back_same {A} (r : res A) : back (fun a => a) (fun _ => True) r r.
Proof. intros t ->. now split. Qed.
Lemma back_bind {A A' B B'} (m : B -> A) (Q : B -> Prop) (m' : B' -> A') (Q' : B' -> Prop) r r' f g :
  back m Q r r' -> (forall t, Q t -> back m' Q' (f (m t)) (g t)) -> back m' Q' (bind r f) (bind r' g).
Proof. intros H G t E. destruct r' as [u|]; [|discriminate]. destruct (H u eq_refl) as [-> Hu]. exact (G u Hu t E). Qed.
Lemma back_weak {A B} (m : B -> A) (Q Q' : B -> Prop) r r' : (forall t, Q t -> Q' t) -> back m Q r r' -> back m Q' r r'.
Proof. intros G H t E. destruct (H t E). split; auto. Qed.
Lemma back_mapM {A A' B B'} (m : B -> A) (Q : B -> Prop) (m' : B' -> A') (Q' : B' -> Prop) f g l :
  (forall t, Q t -> back m' Q' (f (m t)) (g t)) -> Forall Q l -> back (map m') (Forall Q') (mapM f (map m l)) (mapM g l).
Proof.
  intros G F. induction F as [|t l Ht F IH]; cbn [map mapM]; [apply (back_ok (map m')); constructor|].
  eapply back_bind; [apply G; exact Ht|]. intros u Hu. eapply back_bind; [exact IH|]. intros us Hus.
  apply (back_ok (map m') _ (u :: us)). now constructor.
Qed.
(** The same index on both sides. *)
Lemma back_mapM_same {A B' A'} (m' : B' -> A') (Q' : B' -> Prop) (f : A -> res A') (g : A -> res B') l :
  (forall a, back m' Q' (f a) (g a)) -> back (map m') (Forall Q') (mapM f l) (mapM g l).
Proof.
  intros G. rewrite <- (map_id l) at 1. apply (back_mapM (fun a => a) (fun _ => True)); [intros t _; apply G|].
  apply Forall_forall. auto.
Qed.

Section Ops.
Notation np := (numpy_backend complex_ops).
Notation tf := (tf_backend complex_ops).
Notation val := (@tf_val C).

(** A tensor of [r] axes, none of them empty. *)
Definition full (r : nat) (t : tft C) : Prop := ~ In 0 (nd_shape (val t)) /\ length (nd_shape (val t)) = r.
Definition any {A} (_ : A) : Prop := True.
Notation bk r := (back val (full r)).

Lemma full_rows r t pre n m d f : full r t -> split_last (nd_shape (val t)) = Ok (pre, n) -> m <> 0 ->
  forall p, full r (mk_tf p (map_rows d m f pre n (val t))).
Proof.
  intros [H1 H2] E Hm p. apply split_last_inv in E. unfold full. cbn [tf_val map_rows nd_shape].
  rewrite E in H1, H2. rewrite app_length in *. cbn [length] in *. split; [|exact H2].
  intros G. apply in_app_iff in G. destruct G as [G|[G|[]]]; [|congruence]. apply H1, in_app_iff. now left.
Qed.
Lemma full_last r t pre n : full r t -> split_last (nd_shape (val t)) = Ok (pre, n) -> n <> 0 /\ ~ In 0 pre.
Proof.
  intros [H1 _] E. apply split_last_inv in E. rewrite E in H1. split; intros G; apply H1, in_app_iff; [right; left; congruence|now left].
Qed.
Lemma prod_nz s : ~ In 0 s <-> prod s <> 0.
Proof.
  induction s as [|a s IH]; cbn [In prod fold_right]; [split; [lia|tauto]|]. fold (prod s). split.
  - intros G. assert (a <> 0) by (intros ->; apply G; now left). assert (prod s <> 0) by (apply IH; tauto). nia.
  - intros G [->|G']; [lia|]. apply IH in G'; [exact G'|nia].
Qed.

Lemma fft_back r t d p f : full r t -> back val (full r) (np_fft_rows d f (val t)) (lift1 p (tf_fft_rows d f (val t))).
Proof.
  intros H u E. unfold lift1, tf_fft_rows in E. unfold np_fft_rows. destruct (split_last (nd_shape (val t))) as [[pre n]|] eqn:Es; [|discriminate].
  cbn [bind] in *. destruct (full_last _ _ _ _ H Es) as [Hn _]. destruct (Nat.eqb_spec n 0); [congruence|]. injection E as <-.
  split; [reflexivity|]. eapply full_rows; eassumption.
Qed.
Lemma rfft_back r t : full r t -> bk r (be_rfft np (val t)) (be_rfft tf t).
Proof.
  intros H. cbn [numpy_backend tf_backend be_rfft]. unfold np_rfft, tf_rfft. eapply back_bind; [apply back_same|]. intros _ _. now apply fft_back.
Qed.
Lemma cfft_back r t : full r t -> bk r (be_cfft np (val t)) (be_cfft tf t).
Proof.
  intros H. cbn [numpy_backend tf_backend be_cfft]. unfold np_cfft, tf_cfft. eapply back_bind; [apply back_same|]. intros _ _. now apply fft_back.
Qed.
Lemma ifft_back r t : full r t -> bk r (be_ifft np (val t)) (be_ifft tf t).
Proof.
  intros H. cbn [numpy_backend tf_backend be_ifft]. unfold np_ifft, tf_ifft. eapply back_bind; [apply back_same|]. intros _ _. now apply fft_back.
Qed.
Lemma irfft_back r t : full r t -> bk r (be_irfft np (val t)) (be_irfft tf t).
Proof.
  intros H. cbn [numpy_backend tf_backend be_irfft]. unfold np_irfft, tf_irfft. eapply back_bind; [apply back_same|]. intros _ _. now apply fft_back.
Qed.
Lemma cdgmm_back r t w : full r t -> bk r (be_cdgmm np (val t) w) (be_cdgmm tf t w).
Proof.
  intros H u. cbn [numpy_backend tf_backend be_cdgmm]. unfold np_cdgmm, tf_cdgmm. destruct (negb _); [discriminate|].
  destruct (list_eq_dec _ _ _); [|discriminate]. destruct (_ && _); [discriminate|]. intros [= <-]. split; [reflexivity|exact H].
Qed.
Lemma subsample_back r t k : full r t -> bk r (be_subsample np (val t) k) (be_subsample tf t k).
Proof.
  intros H. cbn [numpy_backend tf_backend be_subsample]. unfold np_subsample, tf_subsample. eapply back_bind; [apply back_same|]. intros _ _.
  destruct k as [k|]; [|apply back_err]. destruct (split_last (nd_shape (val t))) as [[pre n]|] eqn:Es; [|apply back_err]. cbn [bind].
  destruct (k =? 0)%Z; [apply back_err|]. destruct (k <? 0)%Z; [apply back_err|]. cbv zeta.
  destruct (Nat.eqb_spec (prod (pre ++ [Z.to_nat k; n / Z.to_nat k])) (prod (nd_shape (val t)))) as [E|]; [|apply back_err].
  intros u [= <-]. split; [reflexivity|]. eapply full_rows; [exact H|exact Es|]. intros E0. rewrite E0 in E.
  destruct H as [H _]. apply prod_nz in H. rewrite prod_app in E. cbn in E. lia.
Qed.
Lemma modulus_back r t : full r t -> bk r (be_modulus np (val t)) (be_modulus tf t).
Proof. intros H u [= <-]. split; [reflexivity|exact H]. Qed.
Lemma average_back r t : full r t -> bk r (be_average_global np (val t)) (be_average_global tf t).
Proof.
  intros H. cbn [numpy_backend tf_backend be_average_global]. unfold np_average_global, tf_average_global. eapply back_bind; [apply back_same|]. intros _ _.
  destruct (split_last (nd_shape (val t))) as [[pre n]|] eqn:Es; [|apply back_err]. cbn [bind]. intros u [= <-]. split; [reflexivity|].
  eapply full_rows; [exact H|exact Es|lia].
Qed.
Lemma pad_back r t a b : full r t -> bk r (be_pad np (val t) a b) (be_pad tf t a b).
Proof.
  intros H. cbn [numpy_backend tf_backend be_pad]. unfold np_pad, tf_pad. destruct (split_last (nd_shape (val t))) as [[pre n]|] eqn:Es; [|apply back_err]. cbn [bind].
  destruct (_ || _)%bool; [apply back_err|]. destruct (_ || _)%bool; [apply back_err|]. intros u [= <-]. split; [reflexivity|].
  destruct (full_last _ _ _ _ H Es). eapply full_rows; [exact H|exact Es|lia].
Qed.
Lemma unpad_back t a b : back val any (be_unpad np (val t) a b) (be_unpad tf t a b).
Proof.
  cbn [numpy_backend tf_backend be_unpad]. unfold np_unpad, tf_unpad. destruct (split_last (nd_shape (val t))) as [[pre n]|] eqn:Es; [|apply back_err]. cbn [bind].
  intros u [= <-]. split; [reflexivity|exact I].
Qed.
Lemma to_runtime_back d (r : res (nd C)) : back val any r (lift1 d (to_runtime r)).
Proof. destruct r; [|apply back_err]. cbn. intros u [= <-]. split; [reflexivity|exact I]. Qed.
Lemma reshape_input_back t n : ~ In 0 (nd_shape (val t)) -> bk 3 (be_reshape_input np (val t) [n]) (be_reshape_input tf t [n]).
Proof.
  intros H u E. cbn [numpy_backend tf_backend be_reshape_input] in *. unfold tf_reshape_input in E.
  destruct (to_runtime_back _ _ _ E) as [E1 _]. split; [exact E1|]. unfold np_reshape_input, reshape_infer in E1.
  apply prod_nz in H. destruct (Nat.eqb_spec (prod [1; n]) 0) as [|Hp]; [discriminate|].
  destruct (Nat.eqb_spec (prod (nd_shape (val t)) mod prod [1; n]) 0) as [Hm|]; [|discriminate]. injection E1 as E1.
  unfold full. rewrite <- E1. cbn [nd_shape length]. split; [|reflexivity].
  pose proof (Nat.div_mod (prod (nd_shape (val t))) _ Hp) as D. rewrite Hm in D.
  assert (Hq : prod (nd_shape (val t)) / prod [1; n] <> 0) by (intros G; rewrite G in D; lia).
  intros [G|[G|[G|[]]]]; [now apply Hq|discriminate|subst n; now apply Hp].
Qed.
Lemma reshape_output_back t b n : back val any (be_reshape_output np (val t) b n) (be_reshape_output tf t b n).
Proof. apply to_runtime_back. Qed.
Lemma stack_weak l dim : back val any (be_stack np (map val l) dim) (be_stack tf l dim).
Proof.
  cbn [numpy_backend tf_backend be_stack]. unfold tf_stack. destruct l as [|x l]; [apply back_err|]. destruct (forallb _ _); [|apply back_err]. apply to_runtime_back.
Qed.
Lemma stack_back l : Forall (full 3) l -> bk 4 (be_stack np (map val l) 2) (be_stack tf l 2).
Proof.
  intros F u E. destruct (stack_weak l 2 u E) as [E1 _]. split; [exact E1|]. cbn [numpy_backend be_stack] in E1.
  destruct F as [|t l [H1 H2] F]; [discriminate|]. unfold stack in E1. cbn [map] in E1. change (2 <? 0)%Z with false in E1. cbn [Z.ltb Z.compare] in E1.
  unfold stack_at in E1. destruct (Nat.ltb _ _); [discriminate|]. destruct (forallb _ _); [|discriminate]. injection E1 as E1. unfold full. rewrite <- E1. cbn [nd_shape].
  change (Z.to_nat 2) with 2. destruct (nd_shape (val t)) as [|a [|b [|c [|]]]]; try discriminate. cbn [firstn skipn app length In] in *. split; [|reflexivity].
  intros [G|[G|[G|[G|[]]]]]; try discriminate; apply H1; auto.
Qed.
Lemma pad_frequency_back r t k : full r t -> bk r (be_pad_frequency np (val t) k) (be_pad_frequency tf t k).
Proof.
  intros H. cbn [numpy_backend tf_backend be_pad_frequency]. unfold np_pad_frequency, tf_pad_frequency. destruct (split_last (nd_shape (val t))) as [[pre n]|] eqn:Es; [|apply back_err]. cbn [bind].
  destruct (k <? 0)%Z; [apply back_err|]. intros u [= <-]. split; [reflexivity|]. destruct (full_last _ _ _ _ H Es). eapply full_rows; [exact H|exact Es|lia].
Qed.
Lemma swap_back r t : full r t -> bk r (be_swap np (val t)) (be_swap tf t).
Proof.
  intros [H1 H2]. cbn [numpy_backend tf_backend be_swap]. unfold np_swap, tf_swap. destruct (split_last2 (nd_shape (val t))) as [[[pre m] n]|] eqn:Es; [|apply back_err]. cbn [bind].
  intros u [= <-]. split; [reflexivity|]. apply split_last2_inv in Es. unfold full. cbn [tf_val nd_shape]. rewrite Es in H1, H2. rewrite app_length in *. split; [|exact H2].
  intros G. apply H1. apply in_app_iff in G. apply in_app_iff. cbn in *. tauto.
Qed.
Lemma unpad_frequency_back t n s : length (nd_shape (val t)) = 4 -> back val any (be_unpad_frequency np (val t) n s) (be_unpad_frequency tf t n s).
Proof.
  intros H. cbn [numpy_backend tf_backend be_unpad_frequency]. unfold np_unpad_frequency, tf_unpad_frequency. destruct s as [s|]; [|apply back_err].
  destruct (s =? 0)%Z; [apply back_err|]. destruct (nd_shape (val t)) as [|a [|b [|m [|r [|? ?]]]]]; try discriminate H.
  change (split_last2 [a; b; m; r]) with (Ok ([a; b], m, r) : res (list nat * nat * nat)). cbn [bind app].
  replace (prod [r]) with r by (cbn; lia). intros u [= <-]. split; [reflexivity|exact I].
Qed.
Lemma split_back t : back (map val) (Forall any) (be_split_frequency np (val t)) (be_split_frequency tf t).
Proof.
  cbn [numpy_backend tf_backend be_split_frequency]. unfold np_split_frequency, tf_split_frequency. destruct (split_last2 (nd_shape (val t))) as [[[pre m] n]|]; [|apply back_err]. cbn [bind].
  destruct (Nat.eqb m 0); [apply back_err|]. intros u [= <-]. split; [now rewrite map_map|]. apply Forall_forall. intros; exact I.
Qed.
End Ops.

(** ** The transforms *)
Section Run.
Context {P : Type} (sgn : P -> Z).
Notation np := (numpy_backend complex_ops).
Notation tf := (tf_backend complex_ops).
Notation val := (@tf_val C).
Notation filt := (Core1d.filter (nd C) P).

Definition pval (q : path (tft C)) : path (nd C) := mk_path (val (p_coef q)) (p_j q) (p_n q).
Definition wval (q : wpath (tft C)) : wpath (nd C) := mk_wpath (val (w_coef q)) (w_j q) (w_n q) (w_n1_max q).
Definition jval (q : jpath (tft C)) : jpath (nd C) := set_coef (val (q_coef q)) q.
Definition pfull r (q : path (tft C)) : Prop := full r (p_coef q).
Definition wfull r (q : wpath (tft C)) : Prop := full r (w_coef q).
Definition jfull r (q : jpath (tft C)) : Prop := full r (q_coef q).

Lemma filter_back {A B} (m : B -> A) (Q : B -> Prop) r t (f : filt) i q F G : full r t ->
  (forall u, full r u -> back m Q (F (val u)) (G u)) ->
  back m Q (l <- py_index (f_levels f) i ;; c <- be_cdgmm np (val t) l ;; s <- be_subsample np c q ;; F s)
           (l <- py_index (f_levels f) i ;; c <- be_cdgmm tf t l ;; s <- be_subsample tf c q ;; G s).
Proof.
  intros Ht HF. eapply back_bind; [apply back_same|]. intros w _. eapply back_bind; [apply cdgmm_back; exact Ht|]. intros c Hc.
  eapply back_bind; [apply subsample_back; exact Hc|]. exact HF.
Qed.

Lemma order0_back r (phi : filt) U Uh ls al : full r U -> full r Uh ->
  back pval (pfull r) (order0 np phi (val U) (val Uh) ls al) (order0 tf phi U Uh ls al).
Proof.
  intros HU HUh. unfold order0. destruct al; [|apply (back_ok pval _ (mk_path U [] [])); exact HU].
  eapply filter_back; [exact HUh|]. intros u Hu. eapply back_bind; [apply irfft_back; exact Hu|]. intros z Hz. apply (back_ok pval _ (mk_path z [] [])). exact Hz.
Qed.
Lemma order1_modulus_back r Uh (f : filt) k : full r Uh -> back val (full r) (order1_modulus np (val Uh) f k) (order1_modulus tf Uh f k).
Proof.
  intros H. unfold order1_modulus. eapply filter_back; [exact H|]. intros u Hu. eapply back_bind; [apply ifft_back; exact Hu|]. intros z Hz. now apply modulus_back.
Qed.
Lemma order2_back r (phi : filt) Uh n1 j1 k1 ls al q : full r Uh ->
  back (map pval) (Forall (pfull r)) (order2 np phi (val Uh) n1 j1 k1 ls al q) (order2 tf phi Uh n1 j1 k1 ls al q).
Proof.
  intros H. unfold order2. destruct q as [n2 f]. cbv zeta. destruct (j1 <? f_j f)%Z; [|apply (back_ok (map pval) _ []); constructor].
  eapply filter_back; [exact H|]. intros u Hu. eapply back_bind; [apply ifft_back; exact Hu|]. intros z Hz. eapply back_bind; [apply modulus_back; exact Hz|]. intros m Hm. destruct al.
  - eapply back_bind; [apply rfft_back; exact Hm|]. intros h Hh. eapply filter_back; [exact Hh|]. intros v Hv. eapply back_bind; [apply irfft_back; exact Hv|]. intros y Hy.
    apply (back_ok (map pval) _ [mk_path y [j1; f_j f] [n1; n2]]). now repeat constructor; apply Hy.
  - apply (back_ok (map pval) _ [mk_path m [j1; f_j f] [n1; n2]]). now repeat constructor; apply Hm.
Qed.
Lemma concat_full {A B} (m : B -> A) (Q : B -> Prop) (l : list (list B)) : Forall (Forall Q) l ->
  concat (map (map m) l) = map m (concat l) /\ Forall Q (concat l).
Proof. intros F. split; [symmetry; apply concat_map|]. induction F; cbn [concat]; [constructor|]. now apply Forall_app. Qed.
Lemma order1_back r (phi : filt) psi2s Uh ls al q : full r Uh ->
  back (map pval) (Forall (pfull r)) (order1 np phi psi2s (val Uh) ls al q) (order1 tf phi psi2s Uh ls al q).
Proof.
  intros H. unfold order1. destruct q as [n1 f]. cbv zeta. eapply back_bind; [apply order1_modulus_back; exact H|]. intros m Hm.
  eapply (back_bind val (full r)); [destruct (al || _); [apply rfft_back; exact Hm|apply back_ok; exact Hm]|]. intros h Hh.
  eapply (back_bind pval (pfull r)).
  - destruct al; [|apply (back_ok pval _ (mk_path m [f_j f] [n1])); exact Hm].
    eapply filter_back; [exact Hh|]. intros u Hu. eapply back_bind; [apply irfft_back; exact Hu|]. intros z Hz. apply (back_ok pval _ (mk_path z [f_j f] [n1])). exact Hz.
  - intros p Hp. eapply (back_bind (map (map pval)) (Forall (Forall (pfull r)))).
    + destruct psi2s; [|apply (back_ok (map (map pval)) _ []); constructor]. apply back_mapM_same. intros a. now apply order2_back.
    + intros ps Hps. destruct (concat_full pval _ ps Hps) as [E F]. rewrite E. apply (back_ok (map pval) _ (p :: concat ps)). now constructor.
Qed.
Lemma scattering1d_back r U (phi : filt) psis ls al : full r U ->
  back (map pval) (Forall (pfull r)) (scattering1d np (val U) phi psis ls al) (scattering1d tf U phi psis ls al).
Proof.
  intros H. unfold scattering1d. eapply back_bind; [apply rfft_back; exact H|]. intros h Hh. eapply back_bind; [apply order0_back; [exact H|exact Hh]|]. intros p0 Hp0.
  eapply back_bind; [apply back_same|]. intros psi1 _. cbv zeta. eapply back_bind; [apply back_mapM_same; intros a; apply order1_back; exact Hh|].
  intros ps Hps. destruct (concat_full pval _ ps Hps) as [E F]. rewrite E. apply (back_ok (map pval) _ (p0 :: concat ps)). now constructor.
Qed.

Lemma finish_back r (s : scat1d (nd C) P) a batch q : pfull r q -> back pval any (finish_path np s a batch (pval q)) (finish_path tf s a batch q).
Proof.
  intros H. unfold finish_path. cbn [pval p_n p_j p_coef]. eapply back_bind; [apply back_same|]. intros z _. eapply (back_bind val any).
  - assert (G : back val any (i0 <- dict_get (s_ind_start s) z ;; i1 <- dict_get (s_ind_end s) z ;; be_unpad np (val (p_coef q)) i0 i1)
                             (i0 <- dict_get (s_ind_start s) z ;; i1 <- dict_get (s_ind_end s) z ;; be_unpad tf (p_coef q) i0 i1)).
    { eapply back_bind; [apply back_same|]. intros i0 _. eapply back_bind; [apply back_same|]. intros i1 _. apply unpad_back. }
    destruct a; [exact G| |exact G]. eapply back_weak; [|apply average_back; exact H]. intros; exact I.
  - intros c _. eapply back_bind; [apply reshape_output_back|]. intros y _. apply (back_ok pval _ (mk_path y (p_j q) (p_n q))). exact I.
Qed.
Lemma insert_val {A B} (m : B -> A) le le' : (forall a b, le (m a) (m b) = le' a b) -> forall l, isort le (map m l) = map m (isort le' l).
Proof.
  intros H. assert (G : forall x l, insert le (m x) (map m l) = map m (insert le' x l)).
  { intros x l. induction l as [|y l IH]; [reflexivity|]. cbn [map insert]. rewrite H. destruct (le' x y); cbn [map]; [reflexivity|]. now rewrite IH. }
  intros l. induction l as [|x l IH]; [reflexivity|]. cbn [map isort]. now rewrite IH, G.
Qed.
Lemma dict_set_val n v (d : list (list nat * tft C)) :
  dict_set n (val v) (map (fun e => (fst e, val (snd e))) d) = map (fun e => (fst e, val (snd e))) (dict_set n v d).
Proof. induction d as [|[k w] d IH]; [reflexivity|]. cbn [map dict_set fst snd]. destruct (list_eq_dec _ n k); cbn [map fst snd]; [reflexivity|]. now rewrite IH. Qed.
Lemma fold_set_val {A B} (m : B -> A) (key : A -> list nat) (cf : A -> nd C) (key' : B -> list nat) (cf' : B -> tft C) :
  (forall b, key (m b) = key' b) -> (forall b, cf (m b) = val (cf' b)) -> forall l d,
  fold_left (fun d p => dict_set (key p) (cf p) d) (map m l) (map (fun e => (fst e, val (snd e))) d) =
  map (fun e => (fst e, val (snd e))) (fold_left (fun d p => dict_set (key' p) (cf' p) d) l d).
Proof. intros H1 H2 l. induction l as [|b l IH]; intros d; [reflexivity|]. cbn [map fold_left]. now rewrite H1, H2, dict_set_val, IH. Qed.
Definition oval (y : output (tft C)) : output (nd C) :=
  match y with
  | OutArray x => OutArray (val x)
  | OutList l => OutList (map pval l)
  | OutDict d => OutDict (map (fun e => (fst e, val (snd e))) d)
  end.
Theorem scattering_back (s : scat1d (nd C) P) t : ~ In 0 (nd_shape (val t)) -> back oval any (scattering np s (val t)) (scattering tf s t).
Proof.
  intros H. unfold scattering. eapply back_bind; [apply back_same|]. intros _ _. change (be_shape tf t) with (be_shape np (val t)).
  eapply back_bind; [apply back_same|]. intros _ _. eapply back_bind; [apply back_same|]. intros [batch n] _.
  eapply back_bind; [apply reshape_input_back; exact H|]. intros x Hx. eapply back_bind; [apply pad_back; exact Hx|]. intros U HU.
  eapply back_bind; [apply back_same|]. intros ls _. eapply back_bind; [apply back_same|]. intros a _. eapply back_bind; [apply scattering1d_back; exact HU|]. intros gen Hg.
  eapply back_bind; [apply (back_mapM pval (pfull 3) pval any); [intros q Hq; apply (finish_back 3); exact Hq|exact Hg]|]. intros ps _.
  destruct (String.eqb _ "dict").
  - change (@nil (list nat * nd C)) with (map (fun e : list nat * tft C => (fst e, val (snd e))) []).
    rewrite (fold_set_val pval p_n p_coef p_n p_coef) by reflexivity. apply (back_ok oval _ (OutDict _)). exact I.
  - cbv zeta. rewrite (insert_val pval _ (fun p q => key_leb (p_n p) (p_n q))) by reflexivity. set (S1 := isort _ ps). destruct (String.eqb _ "array"); [|apply (back_ok oval _ (OutList S1)); exact I].
    eapply back_bind; [|intros y _; apply (back_ok oval _ (OutArray y)); exact I]. rewrite map_map. change (fun x => p_coef (pval x)) with (fun x => val (p_coef x)). rewrite <- (map_map p_coef val). apply stack_weak.
Qed.

(** The joint transform: three axes until the first-order coefficients are stacked, four afterwards. *)
Definition uval (q : tft C * Z * tft C) : nd C * Z * nd C := (val (fst (fst q)), snd (fst q), val (snd q)).
Definition ufull (q : tft C * Z * tft C) : Prop := full 3 (fst (fst q)) /\ full 3 (snd q).
Definition hval (q : tft C * Z) : nd C * Z := (val (fst q), snd q).
Definition hfull (q : tft C * Z) : Prop := full 3 (fst q).
Lemma width1_back (phi : filt) U ls al f : full 3 U -> back uval ufull (width1 np phi (val U) ls al f) (width1 tf phi U ls al f).
Proof.
  intros H. unfold width1. cbv zeta. eapply back_bind; [apply order1_modulus_back; exact H|]. intros m Hm. eapply back_bind; [apply rfft_back; exact Hm|]. intros h Hh.
  eapply filter_back; [exact Hh|]. intros u Hu. eapply back_bind; [apply irfft_back; exact Hu|]. intros z Hz. apply (back_ok uval _ (h, f_j f, z)). now split.
Qed.
Lemma width2_back (f : filt) ls al u : hfull u -> back (map val) (Forall (full 3)) (width2 np f ls al (hval u)) (width2 tf f ls al u).
Proof.
  intros H. unfold width2. destruct u as [U j1]. cbn [hval fst snd]. cbv zeta. destruct (j1 <? f_j f)%Z; [|apply (back_ok (map val) _ []); constructor].
  eapply filter_back; [exact H|]. intros v Hv. eapply back_bind; [apply ifft_back; exact Hv|]. intros z Hz. apply (back_ok (map val) _ [z]). now constructor.
Qed.
Lemma width2_all_back us ls al (q : nat * filt) : Forall hfull us ->
  back (map wval) (Forall (wfull 4)) (width2_all np (map hval us) ls al q) (width2_all tf us ls al q).
Proof.
  intros F. unfold width2_all. destruct q as [n2 f]. eapply back_bind; [apply (back_mapM hval hfull); [intros u Hu; apply width2_back; exact Hu|exact F]|]. intros ys Hys.
  destruct (concat_full val _ ys Hys) as [E G]. cbv zeta. rewrite E, map_length. destruct (Nat.ltb 0 (length (concat ys))); [|apply (back_ok (map wval) _ []); constructor].
  eapply back_bind; [apply stack_back; exact G|]. intros Y HY. apply (back_ok (map wval) _ [mk_wpath Y [(-1)%Z; f_j f] [n2] (Z.of_nat (length (concat ys)))]). now constructor.
Qed.
Definition tval (q : path (tft C) * wpath (tft C) * list (wpath (tft C))) : path (nd C) * wpath (nd C) * list (wpath (nd C)) :=
  (pval (fst (fst q)), wval (snd (fst q)), map wval (snd q)).
Definition tfull (q : path (tft C) * wpath (tft C) * list (wpath (tft C))) : Prop :=
  pfull 3 (fst (fst q)) /\ wfull 4 (snd (fst q)) /\ Forall (wfull 4) (snd q).
Lemma widthfirst_back U (phi : filt) psi1 psi2 ls al : full 3 U -> back tval tfull (widthfirst np (val U) phi psi1 psi2 ls al) (widthfirst tf U phi psi1 psi2 ls al).
Proof.
  intros H. unfold widthfirst. eapply back_bind; [apply rfft_back; exact H|]. intros h Hh. eapply back_bind; [apply order0_back; [exact H|exact Hh]|]. intros p0 Hp0.
  eapply back_bind; [apply back_mapM_same; intros f; apply width1_back; exact Hh|]. intros l1 Hl1.
  assert (E1 : map snd (map uval l1) = map val (map snd l1)) by now rewrite !map_map. assert (E2 : map fst (map uval l1) = map hval (map fst l1)) by now rewrite !map_map.
  rewrite E1, E2, map_length. eapply back_bind.
  - apply stack_back. apply Forall_map. eapply Forall_impl; [|exact Hl1]. intros a [_ Ha]. exact Ha.
  - intros S1 HS1. eapply back_bind.
    + apply back_mapM_same. intros a. apply width2_all_back. apply Forall_map. eapply Forall_impl; [|exact Hl1]. intros b [Hb _]. exact Hb.
    + intros ys Hys. destruct (concat_full wval _ ys Hys) as [E G]. rewrite E. apply (back_ok tval _ (p0, mk_wpath S1 [(-1)%Z] [] (Z.of_nat (length l1)), concat ys)). split; [exact Hp0|split; [exact HS1|exact G]].
Qed.
Lemma freq1_back w Xh ls al (q : nat * filt) : full 4 Xh -> back jval (jfull 4) (freq1 np sgn (wval w) (val Xh) ls al q) (freq1 tf sgn w Xh ls al q).
Proof.
  intros H. unfold freq1. destruct q as [n f]. cbv zeta. eapply filter_back; [exact H|]. intros u Hu. eapply back_bind; [apply ifft_back; exact Hu|]. intros z Hz.
  eapply back_bind; [apply swap_back; exact Hz|]. intros y Hy.
  apply (back_ok jval _ (mk_jpath y (w_j w) (w_n w ++ [n]) (w_n1_max w) (pow2 (f_j f)) (f_j f) n (sgn (f_xi f)) 0)). exact Hy.
Qed.
Lemma frequency_back (phi : filt) psis ls al sp w : wfull 4 w ->
  back (map jval) (Forall (jfull 4)) (frequency_scattering np sgn phi psis ls al sp (wval w)) (frequency_scattering tf sgn phi psis ls al sp w).
Proof.
  intros H. unfold frequency_scattering. cbn [wval w_coef w_n1_max]. eapply back_bind; [apply swap_back; exact H|]. intros x Hx. cbv zeta. eapply back_bind; [apply pad_frequency_back; exact Hx|]. intros y Hy.
  eapply (back_bind val (full 4)); [destruct sp; [apply cfft_back|apply rfft_back]; exact Hy|]. intros z Hz. apply back_mapM_same. intros q. now apply freq1_back.
Qed.
Definition gval (q : path (tft C) * list (jpath (tft C))) : path (nd C) * list (jpath (nd C)) := (pval (fst q), map jval (snd q)).
Definition gfull (q : path (tft C) * list (jpath (tft C))) : Prop := pfull 3 (fst q) /\ Forall (jfull 4) (snd q).
Lemma joint_back U (phi : filt) psi1 psi2 ls al phi_fr psis_fr lf af : full 3 U ->
  back gval gfull (joint_scattering np sgn (val U) phi psi1 psi2 ls al phi_fr psis_fr lf af) (joint_scattering tf sgn U phi psi1 psi2 ls al phi_fr psis_fr lf af).
Proof.
  intros H. unfold joint_scattering. eapply back_bind; [apply widthfirst_back; exact H|]. intros [[p0 S1] Y] (H0 & H1 & H2). cbn [tval fst snd] in *.
  eapply back_bind; [apply frequency_back; exact H1|]. intros f Hf. eapply back_bind; [apply (back_mapM wval (wfull 4)); [intros w Hw; apply frequency_back; exact Hw|exact H2]|].
  intros g Hg. destruct (concat_full jval _ g Hg) as [E G]. rewrite E, <- map_app. apply (back_ok gval _ (p0, f ++ concat g)). split; [exact H0|]. now apply Forall_app.
Qed.
Lemma frequency_averaging_back (phi : filt) ls a q : jfull 4 q -> back jval (jfull 4) (frequency_averaging np phi ls a (jval q)) (frequency_averaging tf phi ls a q).
Proof.
  intros H. unfold frequency_averaging. cbn [jval set_coef q_coef q_j_fr q_n1_max]. destruct a; cbv zeta.
  - eapply back_bind; [apply swap_back; exact H|]. intros x Hx. eapply back_bind; [apply rfft_back; exact Hx|]. intros y Hy. eapply filter_back; [exact Hy|]. intros u Hu.
    eapply back_bind; [apply irfft_back; exact Hu|]. intros z Hz. eapply back_bind; [apply swap_back; exact Hz|]. intros v Hv. apply (back_ok jval _ (set_stride _ (set_coef v q))). exact Hv.
  - eapply back_bind; [apply swap_back; exact H|]. intros x Hx. eapply back_bind; [apply average_back; exact Hx|]. intros y Hy. eapply back_bind; [apply swap_back; exact Hy|]. intros v Hv.
    apply (back_ok jval _ (set_stride _ (set_coef v q))). exact Hv.
  - apply (back_ok jval _ (set_stride _ q)). exact H.
Qed.
Lemma time_averaging_back (phi : filt) ls q : jfull 4 q -> back jval (jfull 4) (time_averaging np phi ls (jval q)) (time_averaging tf phi ls q).
Proof.
  intros H. unfold time_averaging. cbn [jval set_coef q_coef q_j]. eapply back_bind; [apply back_same|]. intros k _. cbv zeta. eapply back_bind; [apply rfft_back; exact H|]. intros y Hy.
  eapply filter_back; [exact Hy|]. intros u Hu. eapply back_bind; [apply irfft_back; exact Hu|]. intros z Hz. apply (back_ok jval _ (set_coef z q)). exact Hz.
Qed.
Lemma index_val l i : back val any (py_index (map val l) i) (py_index l i).
Proof.
  unfold py_index. cbv zeta. rewrite map_length. destruct (i <? 0)%Z; (destruct (_ <? 0)%Z; [apply back_err|]); rewrite nth_error_map; (destruct (nth_error l _); cbn [option_map]; [|apply back_err]); intros u [= <-]; (split; [reflexivity|exact I]).
Qed.
Lemma time_formatting_back q : back (map jval) (Forall any) (time_formatting np false (jval q)) (time_formatting tf false q).
Proof.
  unfold time_formatting. cbn [jval set_coef q_coef q_n1_max q_n1_stride q_n]. eapply back_bind; [apply split_back|]. intros cl _. eapply back_bind; [apply back_same|]. intros ns _.
  apply back_mapM_same. intros [i n1]. eapply back_bind; [apply index_val|]. intros c _.
  apply (back_ok jval _ (set_n (Z.to_nat n1 :: q_n q) (set_order (length (q_n q) - 1) (set_coef c q)))). exact I.
Qed.
Lemma format_back (phi : filt) ls a phi_fr lf af ot fm q : jfull 4 q ->
  back (map jval) (Forall any) (format_path np false phi ls a phi_fr lf af ot fm (jval q)) (format_path tf false phi ls a phi_fr lf af ot fm q).
Proof.
  intros H. unfold format_path. cbn [jval set_coef q_coef]. eapply back_bind; [apply modulus_back; exact H|]. intros c Hc. cbv zeta.
  change (set_coef (val c) (jval q)) with (jval (set_coef c q)). eapply (back_bind jval (jfull 4)).
  - destruct a.
    + change (length (q_n (jval (set_coef c q)))) with (length (q_n (set_coef c q))). destruct (Nat.ltb 1 _); [|apply back_ok; exact Hc]. now apply time_averaging_back.
    + change (q_coef (jval (set_coef c q))) with (val c). cbn [set_coef q_coef]. eapply back_bind; [apply average_back; exact Hc|]. intros z Hz. apply (back_ok jval _ (set_coef z q)). exact Hz.
    + apply back_ok. exact Hc.
  - intros p Hp. eapply (back_bind jval (jfull 4)).
    + destruct af; try (apply back_ok; exact Hp); (change (q_spin (jval p)) with (q_spin p); destruct (q_spin p =? 0)%Z; [apply back_ok; exact Hp|]; now apply frequency_averaging_back).
    + intros p1 Hp1. eapply (back_bind jval any).
      * destruct (_ && _)%bool; [apply back_ok; exact I|]. change (q_coef (jval p1)) with (val (q_coef p1)). eapply back_bind; [apply unpad_frequency_back; apply Hp1|].
        intros z _. apply (back_ok jval _ (set_coef z p1)). exact I.
      * intros p2 _. destruct (String.eqb fm "joint"); [apply (back_ok (map jval) _ [set_order (length (q_n p2)) p2]); repeat constructor|].
        destruct (String.eqb fm "time"); [apply time_formatting_back|apply (back_ok (map jval) _ []); constructor].
Qed.
Definition joval (y : joutput (tft C)) : joutput (nd C) :=
  match y with
  | JArray x => JArray (val x)
  | JList p0 l => JList (pval p0) (map jval l)
  | JDict d => JDict (map (fun e => (fst e, val (snd e))) d)
  end.
Theorem jtfs_back (s : jtfs (nd C) P) t : ~ In 0 (nd_shape (val t)) -> back joval any (jtfs_scattering np sgn s (val t)) (jtfs_scattering tf sgn s t).
Proof.
  intros H. unfold jtfs_scattering. eapply (back_bind gval any).
  - unfold jpaths. cbv zeta. eapply back_bind; [apply back_same|]. intros _ _. change (be_shape tf t) with (be_shape np (val t)).
    eapply back_bind; [apply back_same|]. intros _ _. eapply back_bind; [apply back_same|]. intros [batch n] _.
    eapply back_bind; [apply reshape_input_back; exact H|]. intros x Hx. eapply back_bind; [apply pad_back; exact Hx|]. intros U HU.
    eapply back_bind; [apply back_same|]. intros ls _. eapply back_bind; [apply back_same|]. intros a _. eapply back_bind; [apply back_same|]. intros lf _. eapply back_bind; [apply back_same|]. intros af _.
    eapply back_bind; [apply joint_back; exact HU|]. intros [p0 ps] [H0 Hps]. cbn [gval fst snd] in *. eapply (back_bind gval any).
    + unfold average_and_format. eapply (back_bind pval any).
      * destruct a; try (apply back_ok; exact I). cbn [pval p_coef p_j p_n]. eapply back_bind; [apply average_back; exact H0|]. intros c _. apply (back_ok pval _ (mk_path c (p_j p0) (p_n p0))). exact I.
      * intros p1 _. eapply back_bind; [apply (back_mapM jval (jfull 4)); [intros q Hq; apply format_back; exact Hq|exact Hps]|]. intros l Hl.
        destruct (concat_full jval _ l Hl) as [E _]. rewrite E. apply (back_ok gval _ (p1, concat l)). exact I.
    + intros [p1 l] _. cbn [gval fst snd]. eapply (back_bind pval any).
      * unfold jfinish0. cbn [pval p_coef p_j p_n]. eapply (back_bind val any).
        -- assert (G : back val any
             (resol <- (match a with NoAvg => Ok 0%Z | _ => s_log2_stride (t_base s) end) ;; i0 <- dict_get (s_ind_start (t_base s)) resol ;; i1 <- dict_get (s_ind_end (t_base s)) resol ;; be_unpad np (val (p_coef p1)) i0 i1)
             (resol <- (match a with NoAvg => Ok 0%Z | _ => s_log2_stride (t_base s) end) ;; i0 <- dict_get (s_ind_start (t_base s)) resol ;; i1 <- dict_get (s_ind_end (t_base s)) resol ;; be_unpad tf (p_coef p1) i0 i1)).
           { do 3 (eapply back_bind; [apply back_same|]; intros ? _). apply unpad_back. }
           destruct a; [exact G|apply back_ok; exact I|exact G].
        -- intros c _. eapply back_bind; [apply reshape_output_back|]. intros y _. apply (back_ok pval _ (mk_path y (p_j p1) (p_n p1))). exact I.
      * intros p2 _. eapply back_bind.
        -- apply (back_mapM jval any jval any); [|apply Forall_forall; intros; exact I]. intros q _. unfold jfinish. cbn [jval set_coef q_coef q_j q_n]. eapply (back_bind val any).
           ++ destruct a; try (apply back_ok; exact I); (do 3 (eapply back_bind; [apply back_same|]; intros ? _); apply unpad_back).
           ++ intros c _. eapply back_bind; [apply reshape_output_back|]. intros y _. apply (back_ok jval _ (set_coef y q)). exact I.
        -- intros l2 _. apply (back_ok gval _ (p2, l2)). exact I.
  - intros [p0 l] _. cbn [gval fst snd]. unfold jcontainer. destruct (String.eqb _ "array").
    + assert (E : map q_coef (map jval l) = map val (map q_coef l)) by now rewrite !map_map. rewrite E. destruct (String.eqb _ "joint").
      * eapply back_bind; [apply stack_weak|]. intros y _. apply (back_ok joval _ (JArray y)). exact I.
      * eapply back_bind; [apply (stack_weak (p_coef p0 :: map q_coef l))|]. intros y _. apply (back_ok joval _ (JArray y)). exact I.
    + destruct (String.eqb _ "dict"); [|apply (back_ok joval _ (JList p0 l)); exact I].
      change (dict_set (p_n (pval p0)) (p_coef (pval p0)) []) with (map (fun e : list nat * tft C => (fst e, val (snd e))) (dict_set (p_n p0) (p_coef p0) [])).
      rewrite (fold_set_val jval q_n q_coef q_n q_coef) by reflexivity. apply (back_ok joval _ (JDict _)). exact I.
Qed.
End Run.
