(** Proofs about the buffers of the PyTorch modules (TorchModule.v). *)
From Coq Require Import String ZArith DecimalString DecimalNat List Bool Arith Lia.
From Verif Require Import Base BaseProofs NdArray Backend Core1d Utils1d Frontend1d Jtfs JtfsFront Core2d TorchModule.
Import ListNotations.
Local Open Scope nat_scope.
Local Open Scope res_scope.

Lemma str_inj a b : str a = str b -> a = b.
Proof.
  intros H. assert (E : NilEmpty.uint_of_string (str a) = NilEmpty.uint_of_string (str b)) by now rewrite H.
  unfold str in E. rewrite !NilEmpty.usu in E. injection E as E.
  rewrite <- (Unsigned.of_to a), <- (Unsigned.of_to b). now rewrite E.
Qed.
Lemma tname_inj a b : tname a = tname b -> a = b.
Proof. unfold tname. intros H. cbn [String.append] in H. injection H as H. now apply str_inj. Qed.
Lemma tname_gaussian n : tname n <> "tensor_gaussian_filter"%string.
Proof.
  unfold tname. intros H. cbn [String.append] in H. injection H as H.
  assert (E : NilEmpty.uint_of_string (str n) = NilEmpty.uint_of_string "_gaussian_filter") by now rewrite H.
  unfold str in E. rewrite NilEmpty.usu in E. discriminate.
Qed.

Definition names {V} (l : list (string * V)) : list string := map fst l.
Definition ids {T} (l : list (string * obj T)) : list nat := map (fun kv => fst (snd kv)) l.
Definition vals {T} (l : list (string * obj T)) : list T := map (fun kv => snd (snd kv)) l.
Lemma ids_app {T} (a b : list (string * obj T)) : ids (a ++ b) = ids a ++ ids b.
Proof. apply map_app. Qed.
Lemma vals_app {T} (a b : list (string * obj T)) : vals (a ++ b) = vals a ++ vals b.
Proof. apply map_app. Qed.

Lemma sdict_set_fresh {V} k (v : V) d : ~ In k (names d) -> sdict_set k v d = d ++ [(k, v)].
Proof.
  induction d as [|[k' v'] d IH]; intros H; cbn [sdict_set app names map fst In] in *; [reflexivity|].
  destruct (String.eqb_spec k k') as [->|]; [exfalso; tauto|]. rewrite IH; tauto.
Qed.
Lemma dict_of_nodup {V} (l acc : list (string * V)) : NoDup (names (acc ++ l)) ->
  fold_left (fun d kv => sdict_set (fst kv) (snd kv) d) l acc = acc ++ l.
Proof.
  revert acc. induction l as [|[k v] l IH]; intros acc H; cbn [fold_left fst snd]; [now rewrite app_nil_r|].
  rewrite sdict_set_fresh.
  - rewrite IH; rewrite <- app_assoc; [reflexivity|exact H].
  - unfold names in *. rewrite map_app in H. cbn [map fst] in H. apply NoDup_remove_2 in H. intros K. apply H, in_or_app. now left.
Qed.
Lemma named_nodup {T} (l : list (string * obj T)) seen : NoDup (ids l) -> (forall i, In i (ids l) -> ~ In i seen) -> named_buffers seen l = l.
Proof.
  revert seen. induction l as [|[k o] l IH]; intros seen H Hs; cbn [named_buffers]; [reflexivity|].
  unfold ids in H, Hs. cbn [map snd] in H, Hs. apply NoDup_cons_iff in H as [Hn H].
  destruct (existsb (Nat.eqb (fst o)) seen) eqn:E.
  - exfalso. apply existsb_exists in E as (i & Hi & E). apply Nat.eqb_eq in E. subst i. apply (Hs (fst o)); [now left|exact Hi].
  - rewrite IH; [reflexivity|exact H|]. intros i Hi [<-|K]; [contradiction|]. apply (Hs i); [now right|exact K].
Qed.
Lemma buffer_dict_eq {T} (st : store T) : NoDup (ids (st_bufs st)) -> NoDup (names (st_bufs st)) -> buffer_dict st = st_bufs st.
Proof. intros H1 H2. unfold buffer_dict. rewrite named_nodup; [|exact H1|auto]. now rewrite dict_of_nodup. Qed.

Lemma sdict_get_app {V} (d1 d2 : list (string * V)) k : ~ In k (names d1) -> sdict_get (d1 ++ d2) k = sdict_get d2 k.
Proof.
  induction d1 as [|[k' v'] d1 IH]; intros H; [reflexivity|]. cbn [app]. cbn [sdict_get]. cbn [names map fst In] in H.
  destruct (String.eqb_spec k k') as [->|]; [exfalso; tauto|]. apply IH. tauto.
Qed.

Definition tnames (a n : nat) : list string := map tname (seq a n).
Lemma tnames_nodup a n : NoDup (tnames a n).
Proof.
  unfold tnames. generalize (seq_NoDup n a). generalize (seq a n). intros l. induction l as [|x l IH]; intros H; cbn [map]; [constructor|].
  apply NoDup_cons_iff in H as [H0 H]. constructor; [|auto]. intros K. apply in_map_iff in K as (y & E & Hy). apply tname_inj in E. now subst.
Qed.
Lemma not_in_tnames k a n : a + n <= k -> ~ In (tname k) (tnames a n).
Proof. intros H K. apply in_map_iff in K as (y & E & Hy). apply tname_inj in E. apply in_seq in Hy. lia. Qed.
Lemma tnames_app a n m : tnames a (n + m) = tnames a n ++ tnames (a + n) m.
Proof. unfold tnames. now rewrite seq_app, map_app. Qed.
Lemma names_app {V} (a b : list (string * V)) : names (a ++ b) = names a ++ names b.
Proof. apply map_app. Qed.

Lemma combine_app_eq {X Y} (a b : list X) (c d : list Y) : length a = length c -> combine (a ++ b) (c ++ d) = combine a c ++ combine b d.
Proof. revert c. induction a as [|x a IH]; intros [|y c] H; try discriminate; cbn [app combine]; [reflexivity|]. now rewrite IH by (cbn in H; lia). Qed.
Lemma map_fst_combine {X Y} (a : list X) (c : list Y) : length a = length c -> map fst (combine a c) = a.
Proof. revert c. induction a as [|x a IH]; intros [|y c] H; try discriminate; cbn [combine map fst]; [reflexivity|]. now rewrite IH by (cbn in H; lia). Qed.
Lemma map_snd_combine {X Y} (a : list X) (c : list Y) : length a = length c -> map snd (combine a c) = c.
Proof. revert c. induction a as [|x a IH]; intros [|y c] H; try discriminate; cbn [combine map snd]; [reflexivity|]. now rewrite IH by (cbn in H; lia). Qed.

(** ** Registration *)
Section Register.
Context {A T P : Type} (conv : A -> T).

(** The buffers after registering the levels [done] in this order. *)
Record registered (done : list A) (n : nat) (st : store T) : Prop := {
  rg_n : n = length done;
  rg_names : names (st_bufs st) = tnames 0 n;
  rg_vals : vals (st_bufs st) = map conv done;
  rg_ids : ids (st_bufs st) = seq 0 n;
  rg_next : st_next st = n
}.

Lemma registered_empty : registered [] 0 empty_store.
Proof. now constructor. Qed.

Lemma register_levels_spec l : forall done n st os n' st', registered done n st -> register_levels conv l n st = (os, n', st') ->
  registered (done ++ l) n' st' /\ length os = length l /\ map snd (st_bufs st') = map snd (st_bufs st) ++ os.
Proof.
  induction l as [|a l IH]; intros done n st os n' st' H E; cbn [register_levels] in E.
  - injection E as <- <- <-. now rewrite !app_nil_r.
  - unfold register_level in E. destruct (register_levels conv l (n + 1) _) as [[os1 n1] st1] eqn:E1. injection E as <- <- <-.
    assert (H1 : registered (done ++ [a]) (n + 1) (mk_store (S (st_next st)) (@sdict_set (obj T) (tname n) (st_next st, conv a) (st_bufs st)))).
    { destruct H as [Hn Hnm Hv Hi Hx]. rewrite sdict_set_fresh by (rewrite Hnm; apply not_in_tnames; lia).
      constructor; cbn [st_bufs st_next].
      - rewrite app_length, Hn. reflexivity.
      - rewrite names_app. now rewrite Hnm, tnames_app.
      - rewrite vals_app, Hv, map_app. reflexivity.
      - rewrite ids_app, Hi, seq_app, Hx. reflexivity.
      - lia. }
    destruct (IH _ _ _ _ _ _ H1 E1) as (H2 & H3 & H4). rewrite <- app_assoc in H2. split; [exact H2|]. split; [cbn [length]; lia|].
    rewrite H4. cbn [st_bufs]. rewrite sdict_set_fresh by (rewrite (rg_names _ _ _ H); apply not_in_tnames; lia). rewrite map_app, <- app_assoc. reflexivity.
Qed.

(** The same data, with the tensors left out. *)
Definition fmap {W W'} (g : W -> W') (f : filter W P) : filter W' P := with_levels f (map g (f_levels f)).
Definition skel {W} (f : filter W P) : filter unit P := fmap (fun _ => tt) f.
Definition levels {W} (l : list (filter W P)) : list W := concat (map f_levels l).

Lemma skel_levels {W W'} (f : filter W P) (l : list W') : length l = length (f_levels f) -> skel (with_levels f l) = skel f.
Proof.
  intros H. unfold skel, fmap, with_levels. cbn [f_levels f_xi f_sigma f_j f_N]. f_equal.
  assert (G : forall {V} (m : list V), map (fun _ => tt) m = repeat tt (length m)) by (intros V m; induction m as [|x m IH]; cbn; [|rewrite IH]; reflexivity).
  rewrite !G. now rewrite H.
Qed.

Lemma register_filter_spec f done n st f' n' st' : registered done n st -> register_filter conv f n st = (f', n', st') ->
  registered (done ++ f_levels f) n' st' /\ skel f' = skel (f : filter A P) /\ map snd (st_bufs st') = map snd (st_bufs st) ++ f_levels f'.
Proof.
  intros H E. unfold register_filter in E. destruct (register_levels conv (f_levels f) n st) as [[os n1] st1] eqn:E1. injection E as <- <- <-.
  destruct (register_levels_spec _ _ _ _ _ _ _ H E1) as (H1 & H2 & H3). split; [exact H1|]. split; [now apply skel_levels|exact H3].
Qed.
Lemma register_bank_spec l : forall done n st l' n' st', registered done n st -> register_bank conv l n st = (l', n', st') ->
  registered (done ++ levels l) n' st' /\ map skel l' = map skel (l : list (filter A P)) /\ map snd (st_bufs st') = map snd (st_bufs st) ++ levels l'.
Proof.
  induction l as [|f l IH]; intros done n st l' n' st' H E; cbn [register_bank] in E.
  - injection E as <- <- <-. unfold levels. cbn [map concat]. now rewrite !app_nil_r.
  - destruct (register_filter conv f n st) as [[f1 n1] st1] eqn:E1. destruct (register_bank conv l n1 st1) as [[l2 n2] st2] eqn:E2.
    injection E as <- <- <-. destruct (register_filter_spec _ _ _ _ _ _ _ H E1) as (H1 & K1 & L1).
    destruct (IH _ _ _ _ _ _ H1 E2) as (H2 & K2 & L2). rewrite <- app_assoc in H2. split; [exact H2|]. cbn [map]. rewrite K1, K2. split; [reflexivity|].
    rewrite L2, L1, <- app_assoc. reflexivity.
Qed.

(** The scattering object with its levels mapped, and all its levels in order. *)
Definition smap {W W'} (g : W -> W') (s : scat1d W P) : scat1d W' P :=
  with_filters s (fmap g (s_phi s)) (map (fmap g) (s_psi1 s)) (map (fmap g) (s_psi2 s)).
Definition jmap {W W'} (g : W -> W') (s : jtfs W P) : jtfs W' P :=
  with_jfilters s (smap g (t_base s)) (fmap g (t_phi_fr s)) (map (fmap g) (t_psis_fr s)).
Definition levels1d {W} (s : scat1d W P) : list W := f_levels (s_phi s) ++ levels (s_psi1 s) ++ levels (s_psi2 s).
Definition levelsj {W} (s : jtfs W P) : list W := levels1d (t_base s) ++ f_levels (t_phi_fr s) ++ levels (t_psis_fr s).
Definition skel1d {W} (s : scat1d W P) : scat1d unit P := smap (fun _ => tt) s.
Definition skelj {W} (s : jtfs W P) : jtfs unit P := jmap (fun _ => tt) s.

Lemma register1d_spec s s' n st : register1d conv s empty_store = (s', n, st) ->
  registered (levels1d s) n st /\ skel1d s' = skel1d (s : scat1d A P) /\ map snd (st_bufs st) = levels1d s'.
Proof.
  intros E. unfold register1d in E.
  destruct (register_filter conv (s_phi s) 0 empty_store) as [[phi n1] st1] eqn:E1.
  destruct (register_bank conv (s_psi1 s) n1 st1) as [[psi1 n2] st2] eqn:E2.
  destruct (register_bank conv (s_psi2 s) n2 st2) as [[psi2 n3] st3] eqn:E3. injection E as <- <- <-.
  destruct (register_filter_spec _ _ _ _ _ _ _ registered_empty E1) as (H1 & K1 & L1).
  destruct (register_bank_spec _ _ _ _ _ _ _ H1 E2) as (H2 & K2 & L2).
  destruct (register_bank_spec _ _ _ _ _ _ _ H2 E3) as (H3 & K3 & L3).
  split; [unfold levels1d; rewrite app_assoc; exact H3|]. unfold skel1d, smap. cbn [s_phi s_psi1 s_psi2 with_filters].
  change (@fmap (obj T) unit (fun _ => tt)) with (@skel (obj T)). change (@fmap A unit (fun _ => tt)) with (@skel A). rewrite K1, K2, K3.
  split; [reflexivity|]. unfold levels1d. cbn [with_filters s_phi s_psi1 s_psi2]. now rewrite L3, L2, L1, <- app_assoc.
Qed.
Lemma registerj_spec s s' st : registerj conv s empty_store = (s', st) ->
  (exists n, registered (levelsj s) n st) /\ skelj s' = skelj (s : jtfs A P) /\ map snd (st_bufs st) = levelsj s'.
Proof.
  intros E. unfold registerj in E. destruct (register1d conv (t_base s) empty_store) as [[b n1] st1] eqn:E1.
  destruct (register_filter conv (t_phi_fr s) n1 st1) as [[phi n2] st2] eqn:E2.
  destruct (register_bank conv (t_psis_fr s) n2 st2) as [[psis n3] st3] eqn:E3. injection E as <- <-.
  destruct (register1d_spec _ _ _ _ E1) as (H1 & K1 & L1).
  destruct (register_filter_spec _ _ _ _ _ _ _ H1 E2) as (H2 & K2 & L2).
  destruct (register_bank_spec _ _ _ _ _ _ _ H2 E3) as (H3 & K3 & L3).
  split; [exists n3; unfold levelsj; rewrite app_assoc; exact H3|]. unfold skelj, jmap. cbn [t_base t_phi_fr t_psis_fr with_jfilters].
  change (@fmap (obj T) unit (fun _ => tt)) with (@skel (obj T)). change (@fmap A unit (fun _ => tt)) with (@skel A).
  change (smap (fun _ => tt) b) with (skel1d b). change (smap (fun _ => tt) (t_base s)) with (skel1d (t_base s)). rewrite K1, K2, K3.
  split; [reflexivity|]. unfold levelsj. cbn [with_jfilters t_base t_phi_fr t_psis_fr]. now rewrite L3, L2, L1, <- app_assoc.
Qed.
End Register.

Definition levels2 {W} (l : list (filter2 W)) : list W := concat (map g_levels l).
Definition fmap2 {W W'} (g : W -> W') (f : filter2 W) : filter2 W' := mk_filter2 (map g (g_levels f)) (g_j f) (g_theta f).
Definition skel2 {W} (f : filter2 W) : filter2 unit := fmap2 (fun _ => tt) f.
Lemma register_bank2_spec {A T} (conv : A -> T) l : forall done n st n' st', registered conv done n st -> register_bank2 conv l n st = (n', st') ->
  registered conv (done ++ levels2 l) n' st'.
Proof.
  induction l as [|f l IH]; intros done n st n' st' H E; cbn [register_bank2] in E.
  - injection E as <- <-. unfold levels2. cbn [map concat]. now rewrite app_nil_r.
  - destruct (register_levels conv (g_levels f) n st) as [[os n1] st1] eqn:E1. destruct (register_levels_spec _ _ _ _ _ _ _ _ H E1) as (H1 & _).
    apply (IH _ _ _ _ _ H1) in E. rewrite <- app_assoc in E. exact E.
Qed.
Lemma register2d_spec {A T} (conv : A -> T) phi psi : exists n, registered conv (g_levels phi ++ levels2 psi) n (register2d conv phi psi empty_store).
Proof.
  unfold register2d. destruct (register_levels conv (g_levels phi) 0 empty_store) as [[os n1] st1] eqn:E1.
  destruct (register_bank2 conv psi n1 st1) as [n2 st2] eqn:E2. exists n2.
  destruct (register_levels_spec _ _ _ _ _ _ _ _ (registered_empty conv) E1) as (H1 & _). apply (register_bank2_spec _ _ _ _ _ _ _ H1 E2).
Qed.

(** ** Loading *)
Section Load.
Context {T P : Type}.

(** Buffers under the names tensor0, tensor1, ... with pairwise distinct objects, and perhaps others under other names. *)
Record loadable (os : list (obj T)) (st : store T) : Prop := {
  ld_front : exists rest, st_bufs st = combine (tnames 0 (length os)) os ++ rest;
  ld_names : NoDup (names (st_bufs st));
  ld_ids : NoDup (ids (st_bufs st))
}.

Lemma get_tname os st n : loadable os st -> sdict_get (buffer_dict st) (tname n) = match nth_error os n with Some o => Ok o | None => sdict_get (buffer_dict st) (tname n) end.
Proof.
  intros [(rest & E) Hn Hi]. rewrite (buffer_dict_eq st Hi Hn), E. destruct (nth_error os n) as [o|] eqn:En; [|reflexivity].
  apply nth_error_split in En as (a & b & -> & <-). rewrite app_length. cbn [length]. replace (length a + S (length b)) with (length a + (1 + length b)) by lia.
  rewrite !tnames_app. cbn [Nat.add]. unfold tnames at 2. cbn [seq map]. cbn [app].
  rewrite combine_app_eq by (unfold tnames; now rewrite map_length, seq_length).
  cbn [combine]. rewrite <- app_assoc, sdict_get_app.
  - cbn [app sdict_get]. now rewrite String.eqb_refl.
  - unfold names. rewrite map_fst_combine by (unfold tnames; now rewrite map_length, seq_length). apply not_in_tnames. lia.
Qed.

Lemma load_levels_spec {W} os st (l : list W) : loadable os st -> forall a b c, os = a ++ b ++ c -> length b = length l ->
  load_levels (buffer_dict st) l (length a) = Ok (b, length a + length b).
Proof.
  intros H. induction l as [|w l IH]; intros a b c E Hb; destruct b as [|o b]; try discriminate; cbn [load_levels length].
  - now rewrite Nat.add_0_r.
  - rewrite (get_tname os st (length a) H), E. rewrite nth_error_app2, Nat.sub_diag by lia. cbn [app nth_error bind].
    assert (K : os = (a ++ [o]) ++ b ++ c) by (rewrite E, <- app_assoc; reflexivity). injection Hb as Hb.
    specialize (IH (a ++ [o]) b c K Hb). rewrite app_length in IH. cbn [length] in IH. rewrite IH. cbn [bind]. do 2 f_equal. lia.
Qed.

Lemma load_filter_spec {W} os st (f : filter W P) a b c : loadable os st -> os = a ++ b ++ c -> length b = length (f_levels f) ->
  exists f', load_filter (buffer_dict st) f (length a) = Ok (f', length a + length b) /\ f_levels f' = b /\ skel f' = skel f.
Proof.
  intros H E Hb. unfold load_filter. rewrite (load_levels_spec os st _ H a b c E Hb). cbn [bind]. exists (with_levels f b).
  split; [reflexivity|]. split; [reflexivity|]. now apply skel_levels.
Qed.
Lemma load_bank_spec {W} os st (l : list (filter W P)) : loadable os st -> forall a b c, os = a ++ b ++ c -> length b = length (levels l) ->
  exists l', load_bank (buffer_dict st) l (length a) = Ok (l', length a + length b) /\ levels l' = b /\ map skel l' = map skel l.
Proof.
  intros H. induction l as [|f l IH]; intros a b c E Hb.
  - destruct b; [|discriminate]. exists []. cbn [load_bank length]. rewrite Nat.add_0_r. auto.
  - unfold levels in Hb. cbn [map concat] in Hb. rewrite app_length in Hb. set (k := length (f_levels f)) in *.
    rewrite <- (firstn_skipn k b) in E. rewrite <- app_assoc in E.
    assert (L1 : length (firstn k b) = k) by (rewrite firstn_length; lia).
    assert (L2 : length (skipn k b) = length (levels l)) by (rewrite skipn_length; unfold levels; lia).
    destruct (load_filter_spec os st f a (firstn k b) (skipn k b ++ c) H E L1) as (f' & E1 & F1 & S1).
    rewrite app_assoc in E. destruct (IH (a ++ firstn k b) (skipn k b) c E L2) as (l' & E2 & F2 & S2).
    exists (f' :: l'). cbn [load_bank]. rewrite E1. cbn [bind]. rewrite app_length in E2. rewrite E2. cbn [bind].
    split; [do 2 f_equal; rewrite L1, skipn_length; lia|]. split.
    + unfold levels in *. cbn [map concat]. rewrite F1, F2. apply firstn_skipn.
    + cbn [map]. now rewrite S1, S2.
Qed.

Lemma levels_skel {W} (l : list (filter W P)) : length (levels (map skel l)) = length (levels l).
Proof.
  unfold levels. rewrite map_map. induction l as [|f l IH]; cbn [map concat]; [reflexivity|]. rewrite !app_length, IH.
  unfold skel at 1, fmap. cbn [with_levels f_levels]. now rewrite map_length.
Qed.
Lemma levels1d_skel {W} (s : scat1d W P) : length (levels1d (skel1d s)) = length (levels1d s).
Proof.
  unfold levels1d, skel1d, smap. cbn [with_filters s_phi s_psi1 s_psi2]. rewrite !app_length.
  change (@fmap P W unit (fun _ => tt)) with (@skel P W). rewrite !levels_skel. unfold skel, fmap. cbn [with_levels f_levels]. now rewrite map_length.
Qed.
Lemma levelsj_skel {W} (s : jtfs W P) : length (levelsj (skelj s)) = length (levelsj s).
Proof.
  unfold levelsj, skelj, jmap. cbn [with_jfilters t_base t_phi_fr t_psis_fr]. rewrite !app_length.
  change (smap (fun _ => tt) (t_base s)) with (skel1d (t_base s)). rewrite levels1d_skel.
  change (@fmap P W unit (fun _ => tt)) with (@skel P W). rewrite !levels_skel. unfold skel, fmap. cbn [with_levels f_levels]. now rewrite map_length.
Qed.

Lemma split3 {X} (l : list X) n m k : length l = n + m + k -> exists a b c, l = a ++ b ++ c /\ length a = n /\ length b = m /\ length c = k.
Proof.
  intros H. exists (firstn n l), (firstn m (skipn n l)), (skipn m (skipn n l)).
  rewrite (firstn_skipn m), firstn_skipn. split; [reflexivity|]. rewrite !skipn_length, !firstn_length, ?skipn_length. lia.
Qed.

Lemma load1d_at os rest st (s : scat1d (obj T) P) : loadable (os ++ rest) st -> length os = length (levels1d s) ->
  exists s', load1d st s = Ok (s', length os) /\ levels1d s' = os /\ skel1d s' = skel1d s.
Proof.
  intros H Hn. unfold levels1d in Hn. rewrite !app_length, Nat.add_assoc in Hn. destruct (split3 _ _ _ _ Hn) as (a & b & c & E & La & Lb & Lc).
  destruct (load_filter_spec _ st (s_phi s) [] a (b ++ c ++ rest) H) as (phi & E1 & F1 & S1); [rewrite E, <- !app_assoc; reflexivity|exact La|].
  destruct (load_bank_spec _ st (s_psi1 s) H a b (c ++ rest)) as (p1 & E2 & F2 & S2); [rewrite E, <- !app_assoc; reflexivity|exact Lb|].
  destruct (load_bank_spec _ st (s_psi2 s) H (a ++ b) c rest) as (p2 & E3 & F3 & S3); [rewrite E, <- !app_assoc; reflexivity|exact Lc|].
  exists (with_filters s phi p1 p2). unfold load1d. cbn [length Nat.add] in E1. rewrite E1. cbn [bind]. rewrite E2. cbn [bind].
  rewrite app_length in E3. rewrite E3. cbn [bind]. split; [rewrite E, !app_length; do 2 f_equal; lia|]. split.
  - unfold levels1d. cbn [with_filters s_phi s_psi1 s_psi2]. now rewrite F1, F2, F3, E.
  - unfold skel1d, smap. cbn [with_filters s_phi s_psi1 s_psi2 s_max_order s_out_type s_oversampling s_pad_left s_pad_right s_ind_start s_ind_end s_log2_stride s_average].
    change (@fmap P (obj T) unit (fun _ => tt)) with (@skel P (obj T)). now rewrite S1, S2, S3.
Qed.
Lemma load1d_spec os st (s : scat1d (obj T) P) : loadable os st -> length os = length (levels1d s) ->
  exists s', load1d st s = Ok (s', length os) /\ levels1d s' = os /\ skel1d s' = skel1d s.
Proof. intros H. apply (load1d_at os []). now rewrite app_nil_r. Qed.

Lemma loadj_spec os st (s : jtfs (obj T) P) : loadable os st -> length os = length (levelsj s) ->
  exists s', loadj st s = Ok s' /\ levelsj s' = os /\ skelj s' = skelj s.
Proof.
  intros H Hn. unfold levelsj in Hn. rewrite !app_length, Nat.add_assoc in Hn. destruct (split3 _ _ _ _ Hn) as (a & b & c & E & La & Lb & Lc).
  subst os. destruct (load1d_at a (b ++ c) st (t_base s) H La) as (b' & E1 & F1 & S1).
  destruct (load_filter_spec _ st (t_phi_fr s) a b c H eq_refl Lb) as (phi & E2 & F2 & S2).
  destruct (load_bank_spec _ st (t_psis_fr s) H (a ++ b) c []) as (psis & E3 & F3 & S3); [now rewrite app_nil_r, app_assoc|exact Lc|].
  exists (with_jfilters s b' phi psis). unfold loadj. rewrite E1. cbn [bind]. rewrite E2. cbn [bind]. rewrite app_length in E3. rewrite E3. cbn [bind].
  split; [reflexivity|]. split.
  - unfold levelsj. cbn [with_jfilters t_base t_phi_fr t_psis_fr]. now rewrite F1, F2, F3.
  - unfold skelj, jmap. cbn [with_jfilters t_base t_phi_fr t_psis_fr t_log2_stride_fr t_average_fr t_format].
    change (smap (fun _ => tt) b') with (skel1d b'). change (smap (fun _ => tt) (t_base s)) with (skel1d (t_base s)).
    change (@fmap P (obj T) unit (fun _ => tt)) with (@skel P (obj T)). now rewrite S1, S2, S3.
Qed.

Lemma skel2_levels {W W'} (f : filter2 W) (l : list W') : length l = length (g_levels f) -> skel2 (mk_filter2 l (g_j f) (g_theta f)) = skel2 f.
Proof.
  intros H. unfold skel2, fmap2. cbn [g_levels g_j g_theta]. f_equal.
  assert (G : forall {V} (m : list V), map (fun _ => tt) m = repeat tt (length m)) by (intros V m; induction m as [|x m IH]; cbn; [|rewrite IH]; reflexivity).
  rewrite !G. now rewrite H.
Qed.
Lemma load_filter2_spec {W} os st (f : filter2 W) a b c : loadable os st -> os = a ++ b ++ c -> length b = length (g_levels f) ->
  exists f', load_filter2 (buffer_dict st) f (length a) = Ok (f', length a + length b) /\ g_levels f' = b /\ skel2 f' = skel2 f.
Proof.
  intros H E Hb. unfold load_filter2. rewrite (load_levels_spec os st _ H a b c E Hb). cbn [bind]. eexists.
  split; [reflexivity|]. split; [reflexivity|]. now apply skel2_levels.
Qed.
Lemma load_bank2_spec {W} os st (l : list (filter2 W)) : loadable os st -> forall a b c, os = a ++ b ++ c -> length b = length (levels2 l) ->
  exists l', load_bank2 (buffer_dict st) l (length a) = Ok (l', length a + length b) /\ levels2 l' = b /\ map skel2 l' = map skel2 l.
Proof.
  intros H. induction l as [|f l IH]; intros a b c E Hb.
  - destruct b; [|discriminate]. exists []. cbn [load_bank2 length]. rewrite Nat.add_0_r. auto.
  - unfold levels2 in Hb. cbn [map concat] in Hb. rewrite app_length in Hb. set (k := length (g_levels f)) in *.
    rewrite <- (firstn_skipn k b) in E. rewrite <- app_assoc in E.
    assert (L1 : length (firstn k b) = k) by (rewrite firstn_length; lia).
    assert (L2 : length (skipn k b) = length (levels2 l)) by (rewrite skipn_length; unfold levels2; lia).
    destruct (load_filter2_spec os st f a (firstn k b) (skipn k b ++ c) H E L1) as (f' & E1 & F1 & S1).
    rewrite app_assoc in E. destruct (IH (a ++ firstn k b) (skipn k b) c E L2) as (l' & E2 & F2 & S2).
    exists (f' :: l'). cbn [load_bank2]. rewrite E1. cbn [bind]. rewrite app_length in E2. rewrite E2. cbn [bind].
    split; [do 2 f_equal; rewrite L1, skipn_length; lia|]. split.
    + unfold levels2 in *. cbn [map concat]. rewrite F1, F2. apply firstn_skipn.
    + cbn [map]. now rewrite S1, S2.
Qed.
Lemma load2d_spec {W} os st (phi : filter2 W) psi : loadable os st -> length os = length (g_levels phi) + length (levels2 psi) ->
  exists phi' psi', load2d st phi psi = Ok (phi', psi') /\ g_levels phi' ++ levels2 psi' = os /\ skel2 phi' = skel2 phi /\ map skel2 psi' = map skel2 psi.
Proof.
  intros H Hn. rewrite <- (Nat.add_0_r (_ + _)) in Hn. destruct (split3 _ _ _ _ Hn) as (a & b & c & E & La & Lb & Lc).
  destruct c; [|discriminate]. rewrite app_nil_r in E. subst os.
  destruct (load_filter2_spec _ st phi [] a b H eq_refl La) as (phi' & E1 & F1 & S1).
  destruct (load_bank2_spec _ st psi H a b []) as (psi' & E2 & F2 & S2); [now rewrite app_nil_r|exact Lb|].
  exists phi', psi'. unfold load2d. cbn [length Nat.add] in E1. rewrite E1. cbn [bind]. rewrite E2. cbn [bind]. rewrite F1, F2. auto.
Qed.
Lemma load3d_spec os st (l : list (obj T)) : loadable os st -> length os = length l -> load3d st l = Ok os.
Proof. intros H Hn. unfold load3d. pose proof (load_levels_spec os st l H [] os [] (eq_sym (app_nil_r os)) Hn) as E. cbn [length] in E. now rewrite E. Qed.

(** ** Histories *)
(** What a history does to the contents of the buffer [k]. *)
Definition follow (h : list (event T)) (k : string) (v : T) : T :=
  fold_left (fun v e => match e with Move f _ => f k v | Call => v end) h v.

Definition tidy (st : store T) : Prop := NoDup (ids (st_bufs st)) /\ Forall (fun i => i < st_next st) (ids (st_bufs st)).

Lemma move_buffers_spec f ip (l : list (string * obj T)) : forall next m r, NoDup (ids l) -> Forall (fun i => i < next) (ids l) -> move_buffers f ip next l = (m, r) ->
  names r = names l /\ vals r = map (fun kv => f (fst kv) (snd (snd kv))) l /\ next <= m /\ NoDup (ids r) /\
  Forall (fun i => i < m) (ids r) /\ (forall i, In i (ids r) -> In i (ids l) \/ next <= i).
Proof.
  induction l as [|[k [i v]] l IH]; intros next m r Hn Hl E; cbn [move_buffers] in E.
  - injection E as <- <-. repeat split; auto.
  - cbn [ids map snd fst] in Hn, Hl. apply NoDup_cons_iff in Hn as [Hi Hn]. inversion Hl as [|? ? Hi' Hl']; subst. destruct (ip k).
    + destruct (move_buffers f ip next l) as [m1 r1] eqn:E1. injection E as <- <-.
      destruct (IH _ _ _ Hn Hl' E1) as (A1 & A2 & A3 & A4 & A5 & A6). cbn [names vals ids map fst snd] in *.
      split; [exact (f_equal (cons k) A1)|]. split; [exact (f_equal (cons (f k v)) A2)|]. split; [exact A3|]. split; [|split].
      * constructor; [|exact A4]. intros K. destruct (A6 _ K) as [K'|K']; [contradiction|lia].
      * constructor; [lia|exact A5].
      * intros j [<-|K]; [left; now left|]. destruct (A6 _ K); [left; now right|now right].
    + destruct (move_buffers f ip (S next) l) as [m1 r1] eqn:E1. injection E as <- <-.
      assert (Hl2 : Forall (fun i => i < S next) (ids l)) by (eapply Forall_impl; [|exact Hl']; intros; cbn in *; lia).
      destruct (IH _ _ _ Hn Hl2 E1) as (A1 & A2 & A3 & A4 & A5 & A6). cbn [names vals ids map fst snd] in *.
      split; [exact (f_equal (cons k) A1)|]. split; [exact (f_equal (cons (f k v)) A2)|]. split; [lia|]. split; [|split].
      * constructor; [|exact A4]. intros K. destruct (A6 _ K) as [K'|K']; [|lia]. rewrite Forall_forall in Hl'. specialize (Hl' _ K'). cbn in Hl'. lia.
      * constructor; [lia|exact A5].
      * intros j [<-|K]; [right; lia|]. destruct (A6 _ K); [left; now right|right; lia].
Qed.
Lemma move_spec f ip st : tidy st -> tidy (move f ip st) /\ names (st_bufs (move f ip st)) = names (st_bufs st) /\
  vals (st_bufs (move f ip st)) = map (fun kv => f (fst kv) (snd (snd kv))) (st_bufs st).
Proof.
  intros [H1 H2]. unfold move. destruct (move_buffers f ip (st_next st) (st_bufs st)) as [m r] eqn:E.
  destruct (move_buffers_spec _ _ _ _ _ _ H1 H2 E) as (A1 & A2 & A3 & A4 & A5 & A6). cbn [st_bufs st_next]. unfold tidy. cbn [st_bufs st_next]. auto.
Qed.

Lemma zip_eq {V} (l : list (string * obj V)) : l = combine (names l) (map snd l).
Proof. induction l as [|[k o] l IH]; cbn; [reflexivity|]. f_equal. exact IH. Qed.

(** A module whose buffers are those of [n] levels, and perhaps others under other names. *)
Definition holds (n : nat) (st : store T) : Prop := tidy st /\ NoDup (names (st_bufs st)) /\ exists rest, names (st_bufs st) = tnames 0 n ++ rest.
Definition front (n : nat) (st : store T) : list (obj T) := map snd (firstn n (st_bufs st)).

Lemma holds_loadable n st : holds n st -> loadable (front n st) st /\ length (front n st) = n.
Proof.
  intros ([H1 H2] & H3 & rest & E). assert (L : n <= length (st_bufs st)).
  { assert (G : length (names (st_bufs st)) = length (tnames 0 n ++ rest)) by now rewrite E. unfold names, tnames in G. rewrite map_length, app_length, map_length, seq_length in G. lia. }
  assert (Ln : length (front n st) = n) by (unfold front; rewrite map_length, firstn_length; lia). split; [|exact Ln].
  constructor; [|exact H3|exact H1]. exists (skipn n (st_bufs st)). rewrite <- (firstn_skipn n (st_bufs st)) at 1. f_equal.
  rewrite (zip_eq (firstn n (st_bufs st))). unfold front at 2. f_equal. rewrite Ln. unfold names in *. rewrite <- firstn_map, E, firstn_app.
  unfold tnames at 2. rewrite map_length, seq_length, Nat.sub_diag. cbn [firstn]. rewrite app_nil_r. apply firstn_all2. unfold tnames. now rewrite map_length, seq_length.
Qed.

Lemma holds_move n f ip st : holds n st -> holds n (move f ip st).
Proof. intros (H1 & H2 & H3). destruct (move_spec f ip st H1) as (A1 & A2 & A3). unfold holds. rewrite A2. auto. Qed.

(** The contents of the buffers through any history, whatever the calls do to the object. *)
Lemma history_store {S} (load : store T -> S -> res S) h : forall st s st' s' n, holds n st -> history load h st s = Ok (st', s') ->
  holds n st' /\ names (st_bufs st') = names (st_bufs st) /\ vals (st_bufs st') = map (fun kv => follow h (fst kv) (snd (snd kv))) (st_bufs st).
Proof.
  induction h as [|[f ip|] h IH]; intros st s st' s' n H E; cbn [history] in E.
  - injection E as <- <-. auto.
  - destruct (IH _ _ _ _ n (holds_move n f ip st H) E) as (A1 & A2 & A3). destruct H as (H1 & _). destruct (move_spec f ip st H1) as (B1 & B2 & B3).
    split; [exact A1|]. split; [congruence|]. rewrite A3. unfold follow at 2. cbn [fold_left].
    fold (follow h). clear -B2 B3. unfold names, vals in *. revert B2 B3. generalize (st_bufs (move f ip st)) (st_bufs st). intros l. induction l as [|[k [i v]] l IH];
      intros [|[k2 [i2 v2]] l2] B2 B3; try discriminate; cbn [map fst snd] in *; [reflexivity|]. injection B2 as -> B2. injection B3 as -> B3. f_equal. now apply IH.
  - inv_bind E. destruct (IH _ _ _ _ n H E) as (A1 & A2 & A3). auto.
Qed.

(** A loading function that succeeds whenever the buffers are there runs through any history. *)
Lemma history_total {S} (load : store T -> S -> res S) (ok : S -> Prop) n h : (forall st s, holds n st -> ok s -> exists s', load st s = Ok s' /\ ok s') ->
  forall st s, holds n st -> ok s -> exists st' s', history load h st s = Ok (st', s') /\ ok s'.
Proof.
  intros Hl. induction h as [|[f ip|] h IH]; intros st s H Hs; cbn [history].
  - eauto.
  - apply IH; [now apply holds_move|exact Hs].
  - destruct (Hl st s H Hs) as (s1 & E1 & Hs1). rewrite E1. cbn [bind]. now apply IH.
Qed.
End Load.

(** ** Objects are determined by their skeleton and their levels *)
Lemma skel_eq {W P} (f g : filter W P) : skel f = skel g -> f_levels f = f_levels g -> f = g.
Proof. destruct f, g. unfold skel, fmap, with_levels. cbn. intros H ->. inversion H; subst.  reflexivity. Qed.
Lemma skel_len {W W' P} (f : filter W P) (g : filter W' P) : skel f = skel g -> length (f_levels f) = length (f_levels g).
Proof.
  intros H. rewrite <- (map_length (fun _ => tt) (f_levels f)), <- (map_length (fun _ => tt) (f_levels g)).
  change (map (fun _ => tt) (f_levels f)) with (f_levels (skel f)). change (map (fun _ => tt) (f_levels g)) with (f_levels (skel g)). now rewrite H.
Qed.
Lemma app_eq_len {X} (a b c d : list X) : length a = length c -> a ++ b = c ++ d -> a = c /\ b = d.
Proof. revert c. induction a as [|x a IH]; intros [|y c] H E; try discriminate; [auto|]. injection E as -> E. injection H as H. destruct (IH c H E) as [-> ->]. auto. Qed.
Lemma cons_eq {X} (a b : X) l m : a :: l = b :: m -> a = b /\ l = m.
Proof. intros H. now inversion H. Qed.
Lemma bank_eq {W P} (l m : list (filter W P)) : map skel l = map skel m -> levels l = levels m -> l = m.
Proof.
  revert m. induction l as [|f l IH]; intros [|g m] H E; try discriminate; [reflexivity|]. cbn [map] in H. apply cons_eq in H as [Hf H].
  unfold levels in E. cbn [map concat] in E. apply app_eq_len in E as [E1 E2]; [|now apply skel_len]. f_equal; [|now apply IH]. now apply skel_eq.
Qed.
Lemma bank_len {W W' P} (l : list (filter W P)) (m : list (filter W' P)) : map skel l = map skel m -> length (levels l) = length (levels m).
Proof. intros H. rewrite <- (levels_skel l), <- (levels_skel m). now rewrite H. Qed.

Lemma fmap_fmap {W W' W'' P} (g : W -> W') (g' : W' -> W'') (f : filter W P) : fmap g' (fmap g f) = fmap (fun x => g' (g x)) f.
Proof. unfold fmap, with_levels. cbn. now rewrite map_map. Qed.
Lemma skel_fmap {W W' P} (g : W -> W') (f : filter W P) : skel (fmap g f) = skel f.
Proof. unfold skel. now rewrite fmap_fmap. Qed.
Lemma levels_fmap {W W' P} (g : W -> W') (l : list (filter W P)) : levels (map (fmap g) l) = map g (levels l).
Proof. unfold levels. rewrite concat_map, !map_map. reflexivity. Qed.
Lemma skels_fmap {W W' P} (g : W -> W') (l : list (filter W P)) : map skel (map (fmap g) l) = map skel l.
Proof. rewrite map_map. apply map_ext. intros. apply skel_fmap. Qed.
Lemma skel1d_smap {W W' P} (g : W -> W') (s : scat1d W P) : skel1d (smap g s) = skel1d s.
Proof.
  unfold skel1d, smap. cbn [with_filters s_phi s_psi1 s_psi2 s_max_order s_out_type s_oversampling s_pad_left s_pad_right s_ind_start s_ind_end s_log2_stride s_average].
  change (@fmap P W unit (fun _ => tt)) with (@skel P W). change (@fmap P W' unit (fun _ => tt)) with (@skel P W'). now rewrite !skels_fmap, skel_fmap.
Qed.
Lemma levels1d_smap {W W' P} (g : W -> W') (s : scat1d W P) : levels1d (smap g s) = map g (levels1d s).
Proof. unfold levels1d, smap. cbn [with_filters s_phi s_psi1 s_psi2]. rewrite !levels_fmap, !map_app. reflexivity. Qed.

Lemma skel1d_inv {W W' P} (s : scat1d W P) (s' : scat1d W' P) : skel1d s = skel1d s' ->
  skel (s_phi s) = skel (s_phi s') /\ map skel (s_psi1 s) = map skel (s_psi1 s') /\ map skel (s_psi2 s) = map skel (s_psi2 s') /\
  forall V phi psi1 psi2, @with_filters P W V s phi psi1 psi2 = with_filters s' phi psi1 psi2.
Proof.
  intros H. repeat split.
  - exact (f_equal s_phi H).
  - exact (f_equal s_psi1 H).
  - exact (f_equal s_psi2 H).
  - intros V phi psi1 psi2. unfold with_filters.
    rewrite (f_equal s_max_order H : s_max_order s = s_max_order s'), (f_equal s_out_type H : s_out_type s = s_out_type s'),
      (f_equal s_oversampling H : s_oversampling s = s_oversampling s'), (f_equal s_pad_left H : s_pad_left s = s_pad_left s'),
      (f_equal s_pad_right H : s_pad_right s = s_pad_right s'), (f_equal s_ind_start H : s_ind_start s = s_ind_start s'),
      (f_equal s_ind_end H : s_ind_end s = s_ind_end s'), (f_equal s_log2_stride H : s_log2_stride s = s_log2_stride s'),
      (f_equal s_average H : s_average s = s_average s'). reflexivity.
Qed.
Lemma scat1d_eq {W P} (s s' : scat1d W P) : skel1d s = skel1d s' -> levels1d s = levels1d s' -> s = s'.
Proof.
  intros H E. destruct (skel1d_inv _ _ H) as (H1 & H2 & H3 & H4). unfold levels1d in E.
  apply app_eq_len in E as [E1 E]; [|now apply skel_len]. apply app_eq_len in E as [E2 E3]; [|now apply bank_len].
  apply skel_eq in H1; [|exact E1]. apply bank_eq in H2; [|exact E2]. apply bank_eq in H3; [|exact E3].
  specialize (H4 _ (s_phi s) (s_psi1 s) (s_psi2 s)). destruct s, s'. cbn in *. subst. exact H4.
Qed.
Lemma jtfs_eq {W P} (s s' : jtfs W P) : skelj s = skelj s' -> levelsj s = levelsj s' -> s = s'.
Proof.
  intros H E. pose proof (f_equal t_base H : skel1d (t_base s) = skel1d (t_base s')) as H1.
  pose proof (f_equal t_phi_fr H : skel (t_phi_fr s) = skel (t_phi_fr s')) as H2.
  pose proof (f_equal t_psis_fr H : map skel (t_psis_fr s) = map skel (t_psis_fr s')) as H3. unfold levelsj in E.
  apply app_eq_len in E as [E1 E]; [|now rewrite <- levels1d_skel, H1, levels1d_skel]. apply app_eq_len in E as [E2 E3]; [|now apply skel_len].
  apply scat1d_eq in H1; [|exact E1]. apply skel_eq in H2; [|exact E2]. apply bank_eq in H3; [|exact E3].
  pose proof (f_equal t_log2_stride_fr H : t_log2_stride_fr s = t_log2_stride_fr s') as K1.
  pose proof (f_equal t_average_fr H : t_average_fr s = t_average_fr s') as K2. pose proof (f_equal t_format H : t_format s = t_format s') as K3.
  clear H E1 E2 E3. destruct s, s'. cbn in *. subst. reflexivity.
Qed.
Lemma skelj_jmap {W W' P} (g : W -> W') (s : jtfs W P) : skelj (jmap g s) = skelj s.
Proof.
  unfold skelj, jmap. cbn [with_jfilters t_base t_phi_fr t_psis_fr t_log2_stride_fr t_average_fr t_format].
  change (smap (fun _ => tt) (smap g (t_base s))) with (skel1d (smap g (t_base s))). rewrite skel1d_smap.
  change (@fmap P W unit (fun _ => tt)) with (@skel P W). change (@fmap P W' unit (fun _ => tt)) with (@skel P W'). now rewrite !skels_fmap, skel_fmap.
Qed.
Lemma levelsj_jmap {W W' P} (g : W -> W') (s : jtfs W P) : levelsj (jmap g s) = map g (levelsj s).
Proof. unfold levelsj, jmap. cbn [with_jfilters t_base t_phi_fr t_psis_fr]. rewrite levels1d_smap, levels_fmap, !map_app. reflexivity. Qed.

Lemma skel2_eq {W} (f g : filter2 W) : skel2 f = skel2 g -> g_levels f = g_levels g -> f = g.
Proof. destruct f, g. unfold skel2, fmap2. cbn. intros H ->. inversion H; subst. reflexivity. Qed.
Lemma skel2_len {W W'} (f : filter2 W) (g : filter2 W') : skel2 f = skel2 g -> length (g_levels f) = length (g_levels g).
Proof.
  intros H. rewrite <- (map_length (fun _ => tt) (g_levels f)), <- (map_length (fun _ => tt) (g_levels g)).
  change (map (fun _ => tt) (g_levels f)) with (g_levels (skel2 f)). change (map (fun _ => tt) (g_levels g)) with (g_levels (skel2 g)). now rewrite H.
Qed.
Lemma bank2_eq {W} (l m : list (filter2 W)) : map skel2 l = map skel2 m -> levels2 l = levels2 m -> l = m.
Proof.
  revert m. induction l as [|f l IH]; intros [|g m] H E; try discriminate; [reflexivity|]. cbn [map] in H. apply cons_eq in H as [Hf H].
  unfold levels2 in E. cbn [map concat] in E. apply app_eq_len in E as [E1 E2]; [|now apply skel2_len]. f_equal; [|now apply IH]. now apply skel2_eq.
Qed.
Lemma levels2_fmap {W W'} (g : W -> W') (l : list (filter2 W)) : levels2 (map (fmap2 g) l) = map g (levels2 l).
Proof. unfold levels2. rewrite concat_map, !map_map. reflexivity. Qed.
Lemma skel2_fmap {W W'} (g : W -> W') (f : filter2 W) : skel2 (fmap2 g f) = skel2 f.
Proof. unfold skel2, fmap2. cbn. now rewrite map_map. Qed.

Lemma registered_holds {A T} (conv : A -> T) l n st : registered conv l n st -> holds n st.
Proof.
  intros [H1 H2 H3 H4 H5]. split; [split|split].
  - rewrite H4. apply seq_NoDup.
  - rewrite H4, H5. apply Forall_forall. intros i Hi. apply in_seq in Hi. lia.
  - rewrite H2. apply tnames_nodup.
  - exists []. now rewrite app_nil_r.
Qed.
