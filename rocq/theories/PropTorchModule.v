(** C51: the filters of the PyTorch modules follow the buffers through any history. *)
From Coq Require Import String ZArith List Bool Arith Lia.
From Verif Require Import Base BaseProofs NdArray Backend Core1d Utils1d Frontend1d Jtfs JtfsFront Core2d TorchModule TorchModuleProofs.
Import ListNotations.
Local Open Scope nat_scope.
Local Open Scope res_scope.

(** [levels1d], [levelsj]: the levels of a scattering object in the order phi, psi1, psi2 (and, for the joint transform, the filterbank in
    frequency); and the object with its tensors left out: [skel1d s = skel1d s'] says that the two objects have the same
    attributes, the same wavelets with the same parameters, and the same number of levels for each of them. *)

(** The moves do the same to every buffer (to, cuda, float, double). *)
Definition uniform {T} (h : list (event T)) : Prop :=
  Forall (fun e => match e with Move f _ => forall k k' v, f k v = f k' v | Call => True end) h.
Lemma follow_uniform {T} (h : list (event T)) k k' v : uniform h -> follow h k v = follow h k' v.
Proof.
  unfold follow. intros H. revert v. induction H as [|e h He H IH]; intros v; cbn [fold_left]; [reflexivity|].
  destruct e; [rewrite (He k k' v)|]; apply IH.
Qed.

Lemma map_snd_enumerate {X} (l : list X) : map snd (enumerate l) = l.
Proof. unfold enumerate. generalize 0. induction l as [|x l IH]; intros a; cbn [enum_from map snd]; [reflexivity|]. now rewrite IH. Qed.
Lemma NoDup_snoc {X} (l : list X) x : NoDup l -> ~ In x l -> NoDup (l ++ [x]).
Proof.
  intros H Hx. induction H as [|y l Hy H IH]; cbn [app]; [repeat constructor; tauto|]. cbn [In] in Hx. constructor; [|apply IH; tauto].
  intros K. apply in_app_or in K as [K|[<-|[]]]; tauto.
Qed.
Lemma NoDup_app_l {X} (l m : list X) : NoDup (l ++ m) -> NoDup l.
Proof. induction l as [|x l IH]; cbn [app]; intros H; [constructor|]. apply NoDup_cons_iff in H as [H1 H2]. constructor; [|auto]. intros K. apply H1, in_or_app. now left. Qed.
Lemma vals_snd {T} (l : list (string * obj T)) : vals l = map snd (map snd l).
Proof. unfold vals. now rewrite map_map. Qed.
(** Contents of the buffers of a registered module after a history. *)
Lemma registered_vals {A T} (conv : A -> T) l n st : registered conv l n st -> forall h : list (event T),
  map (fun kv => follow h (fst kv) (snd (snd kv))) (st_bufs st) = map (fun ka => follow h (tname (fst ka)) (conv (snd ka))) (enumerate l).
Proof.
  intros [H1 H2 H3 H4 H5] h. unfold enumerate.
  assert (G : forall (bufs : list (string * obj T)) (l : list A) a, names bufs = tnames a (length l) -> vals bufs = map conv l ->
    map (fun kv => follow h (fst kv) (snd (snd kv))) bufs = map (fun ka => follow h (tname (fst ka)) (conv (snd ka))) (enum_from a l)).
  { clear. intros bufs. induction bufs as [|[k [i v]] bufs IH]; intros [|x l] a E1 E2; try discriminate; [reflexivity|].
    unfold names, tnames, vals in *. cbn [length seq map enum_from fst snd] in *. apply cons_eq in E1 as [-> E1]. apply cons_eq in E2 as [-> E2].
    f_equal. now apply IH. }
  apply G; [now rewrite <- H1|exact H3].
Qed.

Section Any.
Context {A T P : Type} (conv : A -> T).

(** The calls of the 1-D module. *)
Definition call1d (st : store T) (s : scat1d (obj T) P) : res (scat1d (obj T) P) := '(s, _) <- load1d st s ;; Ok s.

(** After register_filters and any history, load_filters succeeds; each level is the buffer it was registered as; no two
    levels share a buffer; all buffers are in use; the contents are those of the NumPy filter, converted, then moved. *)
Theorem C51_filters_follow_1d (s : scat1d A P) s0 n st0 (h : list (event T)) :
  register1d conv s empty_store = (s0, n, st0) ->
  levels1d s0 = map snd (st_bufs st0) /\
  exists st1 s1 s2, history call1d h st0 s0 = Ok (st1, s1) /\ load1d st1 s1 = Ok (s2, n) /\
    map fst (st_bufs st1) = map fst (st_bufs st0) /\ levels1d s2 = map snd (st_bufs st1) /\
    NoDup (map fst (levels1d s2)) /\
    map snd (levels1d s2) = map (fun ka => follow h ("tensor" ++ str (fst ka)) (conv (snd ka))) (enumerate (levels1d s)) /\
    skel1d s2 = skel1d s.
Proof.
  intros E. destruct (register1d_spec conv _ _ _ _ E) as (R & K & L). split; [now symmetry|].
  pose proof (registered_holds _ _ _ _ R) as H0.
  assert (Hok : forall (st : store T) t, holds n st -> skel1d t = skel1d s -> exists t', load1d st t = Ok (t', n) /\ levels1d t' = front n st /\ skel1d t' = skel1d s).
  { intros st t Hst Ht. destruct (holds_loadable n st Hst) as [Hl Ln].
    assert (Lt : length (front n st) = length (levels1d t)).
    { rewrite Ln, <- levels1d_skel, Ht, levels1d_skel. apply (rg_n _ _ _ _ R). }
    destruct (load1d_spec _ st t Hl Lt) as (t' & E1 & F1 & S1). rewrite Ln in E1. exists t'. split; [exact E1|]. split; [exact F1|congruence]. }
  destruct (history_total call1d (fun t => skel1d t = skel1d s) n h) with (st := st0) (s := s0) as (st1 & s1 & Eh & S1); [|exact H0|exact K|].
  { intros st t Hst Ht. destruct (Hok st t Hst Ht) as (t' & E1 & _ & S1). exists t'. unfold call1d. rewrite E1. cbn [bind]. auto. }
  destruct (history_store call1d h st0 s0 st1 s1 n H0 Eh) as (H1 & N1 & V1). destruct (Hok st1 s1 H1 S1) as (s2 & E2 & F2 & S2).
  assert (Fr : front n st1 = map snd (st_bufs st1)).
  { unfold front. f_equal. apply firstn_all2. unfold names in N1. rewrite <- (map_length fst (st_bufs st1)), N1, map_length.
    rewrite <- (map_length snd (st_bufs st0)), L, <- levels1d_skel, K, levels1d_skel. rewrite (rg_n _ _ _ _ R). auto. }
  exists st1, s1, s2. split; [exact Eh|]. split; [exact E2|]. split; [exact N1|]. split; [congruence|]. rewrite F2, Fr. split.
  - rewrite map_map. apply (proj1 (proj1 H1)).
  - split; [|exact S2]. rewrite <- vals_snd, V1. apply (registered_vals conv _ _ _ R).
Qed.

(** In particular, under moves that treat all buffers alike, the module is the NumPy object with each filter level
    replaced by its own converted and moved copy. *)
Corollary C51_module_is_image_1d (s : scat1d A P) s0 n st0 (h : list (event T)) k :
  register1d conv s empty_store = (s0, n, st0) -> uniform h ->
  exists st1 s1 s2, history call1d h st0 s0 = Ok (st1, s1) /\ load1d st1 s1 = Ok (s2, n) /\
    smap snd s2 = smap (fun a => follow h k (conv a)) s.
Proof.
  intros E Hu. destruct (C51_filters_follow_1d s s0 n st0 h E) as (_ & st1 & s1 & s2 & Eh & El & _ & _ & _ & V & S). exists st1, s1, s2.
  split; [exact Eh|]. split; [exact El|]. apply scat1d_eq; [rewrite !skel1d_smap; exact S|]. rewrite !levels1d_smap. etransitivity; [exact V|].
  rewrite <- (map_snd_enumerate (levels1d s)) at 2. rewrite map_map. apply map_ext. intros ka. now apply follow_uniform.
Qed.

Theorem C51_filters_follow_joint (s : jtfs A P) s0 st0 (h : list (event T)) :
  registerj conv s empty_store = (s0, st0) ->
  levelsj s0 = map snd (st_bufs st0) /\
  exists st1 s1 s2, history loadj h st0 s0 = Ok (st1, s1) /\ loadj st1 s1 = Ok s2 /\
    map fst (st_bufs st1) = map fst (st_bufs st0) /\ levelsj s2 = map snd (st_bufs st1) /\
    NoDup (map fst (levelsj s2)) /\
    map snd (levelsj s2) = map (fun ka => follow h ("tensor" ++ str (fst ka)) (conv (snd ka))) (enumerate (levelsj s)) /\
    skelj s2 = skelj s.
Proof.
  intros E. destruct (registerj_spec conv _ _ _ E) as ((n & R) & K & L). split; [now symmetry|].
  pose proof (registered_holds _ _ _ _ R) as H0.
  assert (Hok : forall (st : store T) t, holds n st -> skelj t = skelj s -> exists t', loadj st t = Ok t' /\ levelsj t' = front n st /\ skelj t' = skelj s).
  { intros st t Hst Ht. destruct (holds_loadable n st Hst) as [Hl Ln].
    assert (Lt : length (front n st) = length (levelsj t)).
    { rewrite Ln, <- levelsj_skel, Ht, levelsj_skel. apply (rg_n _ _ _ _ R). }
    destruct (loadj_spec _ st t Hl Lt) as (t' & E1 & F1 & S1). exists t'. split; [exact E1|]. split; [exact F1|congruence]. }
  destruct (history_total loadj (fun t => skelj t = skelj s) n h) with (st := st0) (s := s0) as (st1 & s1 & Eh & S1); [|exact H0|exact K|].
  { intros st t Hst Ht. destruct (Hok st t Hst Ht) as (t' & E1 & _ & S1). eauto. }
  destruct (history_store loadj h st0 s0 st1 s1 n H0 Eh) as (H1 & N1 & V1). destruct (Hok st1 s1 H1 S1) as (s2 & E2 & F2 & S2).
  assert (Fr : front n st1 = map snd (st_bufs st1)).
  { unfold front. f_equal. apply firstn_all2. unfold names in N1. rewrite <- (map_length fst (st_bufs st1)), N1, map_length.
    rewrite <- (map_length snd (st_bufs st0)), L, <- levelsj_skel, K, levelsj_skel. rewrite (rg_n _ _ _ _ R). auto. }
  exists st1, s1, s2. split; [exact Eh|]. split; [exact E2|]. split; [exact N1|]. split; [congruence|]. rewrite F2, Fr. split.
  - rewrite map_map. apply (proj1 (proj1 H1)).
  - split; [|exact S2]. rewrite <- vals_snd, V1. apply (registered_vals conv _ _ _ R).
Qed.
Corollary C51_module_is_image_joint (s : jtfs A P) s0 st0 (h : list (event T)) k :
  registerj conv s empty_store = (s0, st0) -> uniform h ->
  exists st1 s1 s2, history loadj h st0 s0 = Ok (st1, s1) /\ loadj st1 s1 = Ok s2 /\
    jmap snd s2 = jmap (fun a => follow h k (conv a)) s.
Proof.
  intros E Hu. destruct (C51_filters_follow_joint s s0 st0 h E) as (_ & st1 & s1 & s2 & Eh & El & _ & _ & _ & V & S). exists st1, s1, s2.
  split; [exact Eh|]. split; [exact El|]. apply jtfs_eq; [rewrite !skelj_jmap; exact S|]. rewrite !levelsj_jmap. etransitivity; [exact V|].
  rewrite <- (map_snd_enumerate (levelsj s)) at 2. rewrite map_map. apply map_ext. intros ka. now apply follow_uniform.
Qed.

(** 2-D: load_filters returns new dictionaries and never changes the object. *)
Theorem C51_filters_follow_2d (phi : filter2 A) (psi : list (filter2 A)) (h : list (event T)) st0 :
  register2d conv phi psi empty_store = st0 ->
  exists st1 phi' psi', history (fun _ (u : unit) => Ok u) h st0 tt = Ok (st1, tt) /\ load2d st1 phi psi = Ok (phi', psi') /\
    map fst (st_bufs st1) = map fst (st_bufs st0) /\ g_levels phi' ++ concat (map g_levels psi') = map snd (st_bufs st1) /\
    NoDup (map fst (g_levels phi' ++ concat (map g_levels psi'))) /\
    (uniform h -> forall k, fmap2 snd phi' = fmap2 (fun a => follow h k (conv a)) phi /\
                            map (fmap2 snd) psi' = map (fmap2 (fun a => follow h k (conv a))) psi).
Proof.
  intros E. destruct (register2d_spec conv phi psi) as (n & R). rewrite E in R. pose proof (registered_holds _ _ _ _ R) as H0.
  destruct (history_total (fun _ (u : unit) => Ok u) (fun _ => True) n h) with (st := st0) (s := tt) as (st1 & u & Eh & _); [|exact H0|exact I|].
  { intros st u _ _. exists u. auto. }
  destruct u. destruct (history_store _ h st0 tt st1 tt n H0 Eh) as (H1 & N1 & V1). destruct (holds_loadable n st1 H1) as [Hl Ln].
  assert (Lb : length (st_bufs st1) = n).
  { unfold names in N1. rewrite <- (map_length fst (st_bufs st1)), N1. change (map fst (st_bufs st0)) with (names (st_bufs st0)). rewrite (rg_names _ _ _ _ R). unfold tnames. now rewrite map_length, seq_length. }
  assert (Fr : front n st1 = map snd (st_bufs st1)) by (unfold front; f_equal; apply firstn_all2; lia).
  destruct (load2d_spec (front n st1) st1 phi psi Hl) as (phi' & psi' & E2 & F2 & S2 & S3).
  { rewrite Ln, (rg_n _ _ _ _ R), app_length. reflexivity. }
  exists st1, phi', psi'. split; [exact Eh|]. split; [exact E2|]. split; [exact N1|]. change (concat (map g_levels psi')) with (levels2 psi').
  rewrite F2, Fr. split; [reflexivity|]. split; [rewrite map_map; apply (proj1 (proj1 H1))|].
  intros Hu k. assert (V : @map (obj T) T snd (g_levels phi') ++ @map (obj T) T snd (levels2 psi') = map (fun a => follow h k (conv a)) (g_levels phi) ++ map (fun a => follow h k (conv a)) (levels2 psi)).
  { rewrite <- !map_app, F2, Fr. etransitivity; [symmetry; apply (vals_snd (st_bufs st1))|]. rewrite V1, (registered_vals conv _ _ _ R). rewrite <- (map_snd_enumerate (g_levels phi ++ levels2 psi)) at 2. rewrite map_map.
    apply map_ext. intros ka. now apply follow_uniform. }
  apply app_eq_len in V as [V2 V3]; [|rewrite !map_length; now apply skel2_len]. split.
  - apply skel2_eq; [now rewrite !skel2_fmap|exact V2].
  - apply bank2_eq; [|now rewrite !levels2_fmap].
    rewrite !map_map. rewrite (map_ext _ _ (skel2_fmap snd)), (map_ext _ _ (skel2_fmap (fun a => follow h k (conv a)))). exact S3.
Qed.

(** 3-D: the loop reloads the wavelets; the buffer of the Gaussian filters bears another name. *)
Theorem C51_filters_follow_3d (filters : list A) (gaussian : A) os g st0 (h : list (event T)) :
  register3d conv filters gaussian empty_store = (os, g, st0) ->
  os ++ [g] = map snd (st_bufs st0) /\
  exists st1 l1 l2, history load3d h st0 os = Ok (st1, l1) /\ load3d st1 l1 = Ok l2 /\
    map fst (st_bufs st1) = map fst (st_bufs st0) /\ (exists g', l2 ++ [g'] = map snd (st_bufs st1)) /\ NoDup (map fst l2) /\
    map snd l2 = map (fun ka => follow h ("tensor" ++ str (fst ka)) (conv (snd ka))) (enumerate filters).
Proof.
  intros E. unfold register3d in E. destruct (register_levels conv filters 0 empty_store) as [[os' n] st] eqn:E1.
  destruct (register_levels_spec _ _ _ _ _ _ _ _ (registered_empty conv) E1) as (R & Lo & Ms). cbn [app empty_store st_bufs map] in R, Ms. injection E as <- <- <-.
  assert (Nt : ~ In "tensor_gaussian_filter"%string (names (st_bufs st))).
  { rewrite (rg_names _ _ _ _ R). intros K. apply in_map_iff in K as (i & K & _). now apply tname_gaussian in K. }
  cbn [st_bufs]. rewrite (sdict_set_fresh _ _ _ Nt). split; [rewrite map_app, Ms; reflexivity|].
  set (st0 := mk_store _ _). pose proof (rg_n _ _ _ _ R) as Hn.
  assert (H0 : holds n st0).
  { destruct R as [R1 R2 R3 R4 R5]. split; [split|split]; cbn [st0 st_bufs st_next].
    - rewrite ids_app, R4. cbn [ids map snd fst app]. rewrite R5. change [n] with (seq (0 + n) 1). rewrite <- seq_app. apply seq_NoDup.
    - rewrite ids_app, R4, R5. apply Forall_app. split; [|repeat constructor; cbn [fst snd]; lia]. apply Forall_forall. intros i Hi. apply in_seq in Hi. lia.
    - rewrite names_app, R2. cbn [names map fst]. rewrite R2 in Nt. apply NoDup_snoc; [apply tnames_nodup|exact Nt].
    - exists ["tensor_gaussian_filter"%string]. rewrite names_app, R2. reflexivity. }
  assert (Hok : forall (st : store T) t, holds n st -> length t = n -> load3d st t = Ok (front n st)).
  { intros st2 t Hst Ht. destruct (holds_loadable n st2 Hst) as [Hl Ln]. apply load3d_spec; [exact Hl|lia]. }
  destruct (history_total load3d (fun t => length t = n) n h) with (st := st0) (s := os') as (st1 & l1 & Eh & L1); [|exact H0|lia|].
  { intros st2 t Hst Ht. exists (front n st2). split; [now apply Hok|]. apply (holds_loadable n st2 Hst). }
  destruct (history_store load3d h st0 os' st1 l1 n H0 Eh) as (H1 & N1 & V1).
  assert (Lb : length (st_bufs st1) = n + 1).
  { unfold names in N1. rewrite <- (map_length fst (st_bufs st1)), N1, map_length. cbn [st0 st_bufs]. rewrite app_length. cbn [length].
    f_equal. rewrite <- (map_length snd), Ms. lia. }
  exists st1, l1, (front n st1). split; [exact Eh|]. split; [now apply Hok|]. split; [exact N1|].
  assert (Sp : exists kg, st_bufs st1 = firstn n (st_bufs st1) ++ [kg]).
  { pose proof (firstn_skipn n (st_bufs st1)) as G. assert (L2 : length (skipn n (st_bufs st1)) = 1) by (rewrite skipn_length; lia).
    destruct (skipn n (st_bufs st1)) as [|kg [|]]; try discriminate. exists kg. now symmetry. }
  destruct Sp as (kg & Sp). split; [exists (snd kg); unfold front; rewrite Sp at 2; now rewrite map_app|]. split.
  - unfold front. rewrite map_map. destruct H1 as ((H1 & _) & _). unfold ids in H1. rewrite Sp, map_app in H1. now apply NoDup_app_l in H1.
  - pose proof (registered_vals conv _ _ _ R h) as G. unfold tname in G. rewrite <- G. cbn [st0 st_bufs] in V1. rewrite map_app in V1. unfold front. rewrite map_map.
    rewrite Sp in V1. rewrite vals_app in V1. apply app_eq_len in V1 as [V1 _]; [exact V1|]. unfold vals. rewrite !map_length, firstn_length, Lb.
    rewrite <- (map_length snd (st_bufs st)), Ms. lia.
Qed.
End Any.
Print Assumptions C51_filters_follow_1d.
Print Assumptions C51_module_is_image_1d.
Print Assumptions C51_filters_follow_joint.
Print Assumptions C51_module_is_image_joint.
Print Assumptions C51_filters_follow_2d.
Print Assumptions C51_filters_follow_3d.

(** ** Instances *)
Definition ex_filter (l : list nat) (j : Z) : filter nat Z := mk_filter l 0%Z 0%Z j 8%Z.
Definition ex_module : scat1d nat Z :=
  {| s_phi := ex_filter [3; 4] 1; s_psi1 := [ex_filter [5; 6] 0; ex_filter [7] 1]; s_psi2 := [ex_filter [8; 9] 1];
     s_max_order := 2; s_out_type := "array"; s_oversampling := OInt 0; s_pad_left := 1; s_pad_right := 1;
     s_ind_start := [1; 1]%Z; s_ind_end := [7; 4]%Z; s_log2_stride := Ok 1%Z; s_average := Ok Local |}.
(** A cast that makes new buffers, a call, a cast that keeps the objects, another move. *)
Definition ex_history : list (event nat) :=
  [Move (fun _ v => v + 100) (fun _ => false); Call; Move (fun _ v => 2 * v) (fun _ => true); Move (fun _ v => v + 1) (fun k => String.eqb k "tensor3")].
Example C51_filters_follow_1d_instance :
  let '(s0, n, st0) := register1d (fun v => v) ex_module empty_store in
  exists st1 s1 s2, history call1d ex_history st0 s0 = Ok (st1, s1) /\ load1d st1 s1 = Ok (s2, n) /\ n = 7 /\
    map fst (st_bufs st1) = ["tensor0"; "tensor1"; "tensor2"; "tensor3"; "tensor4"; "tensor5"; "tensor6"]%string /\
    map fst (levels1d s1) = [7; 8; 9; 10; 11; 12; 13] /\ map fst (levels1d s2) = [14; 15; 16; 10; 17; 18; 19] /\
    map snd (f_levels (s_phi s2)) = [207; 209] /\ map (fun f => map snd (f_levels f)) (s_psi1 s2) = [[211; 213]; [215]] /\
    map (fun f => map snd (f_levels f)) (s_psi2 s2) = [[217; 219]].
Proof. vm_compute. eexists _, _, _. repeat split; reflexivity. Qed.
Example C51_uniform_instance : uniform ex_history.
Proof. repeat constructor. Qed.
Definition ex_joint : jtfs nat Z :=
  {| t_base := ex_module; t_phi_fr := ex_filter [10; 11] 1; t_psis_fr := [ex_filter [12] 0; ex_filter [13] 1];
     t_log2_stride_fr := Ok 1%Z; t_average_fr := Ok Local; t_format := "time" |}.
Example C51_filters_follow_joint_instance :
  let '(s0, st0) := registerj (fun v => v) ex_joint empty_store in
  exists st1 s1 s2, history loadj ex_history st0 s0 = Ok (st1, s1) /\ loadj st1 s1 = Ok s2 /\
    map snd (f_levels (t_phi_fr s2)) = [221; 223] /\ map (fun f => map snd (f_levels f)) (t_psis_fr s2) = [[225]; [227]].
Proof. vm_compute. eexists _, _, _. repeat split; reflexivity. Qed.
Example C51_filters_follow_2d_instance :
  let st0 := register2d (fun v => v) (mk_filter2 [3; 4] 1 0) [mk_filter2 [5; 6] 0 0; mk_filter2 [7] 1 0] empty_store in
  exists st1, history (fun _ (u : unit) => Ok u) ex_history st0 tt = Ok (st1, tt) /\
    exists phi psi, load2d st1 (mk_filter2 [3; 4] 1 0) [mk_filter2 [5; 6] 0 0; mk_filter2 [7] 1 0] = Ok (phi, psi) /\
      map snd (g_levels phi) = [207; 209] /\ map (fun f => map snd (g_levels f)) psi = [[211; 213]; [215]].
Proof. vm_compute. eexists. split; [reflexivity|]. eexists _, _. repeat split; reflexivity. Qed.
Example C51_filters_follow_3d_instance :
  let '(os, g, st0) := register3d (fun v => v) [3; 4] 50 empty_store in
  exists st1 l1 l2, history load3d ex_history st0 os = Ok (st1, l1) /\ load3d st1 l1 = Ok l2 /\ map snd l2 = [207; 209].
Proof. vm_compute. eexists _, _, _. repeat split; reflexivity. Qed.
