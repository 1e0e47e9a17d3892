(** Row-wise characterisation of the array operations of NdArray.v and of the NumPy backend. *)
From Coq Require Import ZArith List Bool Arith Lia.
From Verif Require Import Base BaseProofs NdArray Backend.
Import ListNotations.
Local Open Scope nat_scope.

Section Rows.
Context {K : Type}.

(** An array of shape [pre ++ [n]] given by its rows. *)
Definition of_rows (d : dtype) (pre : list nat) (n : nat) (rows : list (list K)) : nd K :=
  mk_nd d (pre ++ [n]) (concat rows).
Definition rows_ok (pre : list nat) (n : nat) (rows : list (list K)) : Prop :=
  List.length rows = prod pre /\ Forall (fun r => List.length r = n) rows.

Lemma prod_app a b : prod (a ++ b) = prod a * prod b.
Proof. unfold prod. induction a as [|x a IH]; cbn; [lia|]. rewrite IH. lia. Qed.

Lemma prod_snoc pre n : prod (pre ++ [n]) = prod pre * n.
Proof. rewrite prod_app. cbn. lia. Qed.

Lemma split_last_snoc pre n : split_last (pre ++ [n]) = Ok (pre, n).
Proof. unfold split_last. rewrite rev_app_distr. cbn. now rewrite rev_involutive. Qed.

Lemma split_last_inv s pre n : split_last s = Ok (pre, n) -> s = pre ++ [n].
Proof.
  unfold split_last. destruct (rev s) as [|a r] eqn:E; [discriminate|]. intros H. injection H; intros <- <-.
  rewrite <- (rev_involutive s), E. reflexivity.
Qed.

Lemma concat_len {A} n (rows : list (list A)) : Forall (fun r => List.length r = n) rows ->
  List.length (concat rows) = List.length rows * n.
Proof. induction 1 as [|r rows Hr F IH]; cbn; [reflexivity|]. rewrite app_length, IH. lia. Qed.

Lemma chunks_concat {A} n (rows : list (list A)) : Forall (fun r => List.length r = n) rows ->
  chunks (List.length rows) n (concat rows) = rows.
Proof.
  induction 1 as [|r rows Hr F IH]; cbn [List.length chunks concat]; [reflexivity|].
  rewrite firstn_app, skipn_app, Hr, Nat.sub_diag, firstn_O, app_nil_r, skipn_O.
  rewrite (firstn_all2 r) by lia. rewrite (skipn_all2 r) by lia. cbn [app]. now rewrite IH.
Qed.

Lemma chunks_ok {A} m n (l : list A) : List.length l = m * n ->
  List.length (chunks m n l) = m /\ Forall (fun r => List.length r = n) (chunks m n l) /\
  concat (chunks m n l) = l.
Proof.
  revert l. induction m as [|m IH]; intros l H; cbn [chunks].
  - destruct l; [|discriminate]. auto.
  - destruct (IH (skipn n l)) as (H1 & H2 & H3); [rewrite skipn_length; lia|].
    cbn [List.length concat]. split; [lia|]. split.
    + constructor; [rewrite firstn_length; lia|exact H2].
    + rewrite H3. apply firstn_skipn.
Qed.

Lemma chunks_of pre n d rows : rows_ok pre n rows ->
  chunks (prod pre) n (nd_data (of_rows d pre n rows)) = rows.
Proof. intros [H1 H2]. rewrite <- H1. now apply chunks_concat. Qed.

(** Every well-formed array of positive rank is given by its rows. *)
Lemma of_rows_intro (x : nd K) pre n : nd_wf x -> nd_shape x = pre ++ [n] ->
  exists rows, x = of_rows (nd_dtype x) pre n rows /\ rows_ok pre n rows.
Proof.
  intros Hw Hs. unfold nd_wf in Hw. rewrite Hs, prod_snoc in Hw.
  destruct (chunks_ok _ _ _ Hw) as (H1 & H2 & H3).
  exists (chunks (prod pre) n (nd_data x)). split; [|split; assumption].
  unfold of_rows. rewrite H3, <- Hs. destruct x; reflexivity.
Qed.

Lemma of_rows_wf d pre n rows : rows_ok pre n rows -> nd_wf (of_rows d pre n rows).
Proof. intros [H1 H2]. unfold nd_wf. cbn. rewrite prod_snoc, (concat_len n) by assumption. lia. Qed.

Lemma map_rows_of d d' pre n n' f rows : rows_ok pre n rows ->
  map_rows d' n' f pre n (of_rows d pre n rows) = of_rows d' pre n' (map f rows).
Proof. intros H. unfold map_rows. rewrite chunks_of by assumption. reflexivity. Qed.

Lemma rows_ok_map pre n n' f rows : (forall r, List.length r = n -> List.length (f r) = n') ->
  rows_ok pre n rows -> rows_ok pre n' (map f rows).
Proof.
  intros Hf [H1 H2]. split; [now rewrite map_length|]. rewrite Forall_map. eapply Forall_impl; [|exact H2].
  exact Hf.
Qed.

Lemma rows_ok_pre pre pre' n rows : prod pre = prod pre' -> rows_ok pre n rows -> rows_ok pre' n rows.
Proof. intros E [H1 H2]. split; [congruence|assumption]. Qed.
End Rows.

Section Ops.
Context {K : Type} (o : ops K).
Definition ops_ok : Prop :=
  (forall l, List.length (o_fft o l) = List.length l) /\ (forall l, List.length (o_ifft o l) = List.length l).

Lemma periodize_row_length k m row : List.length (periodize_row o k m row) = m.
Proof. unfold periodize_row. now rewrite map_length, seq_length. Qed.
Lemma mul_row_length b row : List.length b = List.length row -> List.length (mul_row o b row) = List.length row.
Proof. intros H. unfold mul_row. rewrite map_length, combine_length. lia. Qed.
Lemma pad_row_length l r n row : List.length (pad_reflect_row o l r n row) = l + n + r.
Proof. unfold pad_reflect_row. now rewrite map_length, seq_length. Qed.
Lemma slice_length {A} a b (l : list A) : List.length (slice a b l) = Nat.min b (List.length l) - Nat.min a (List.length l).
Proof. unfold slice. rewrite firstn_length, skipn_length. lia. Qed.

Variables (pre : list nat) (n : nat) (rows : list (list K)).
Hypothesis (Hr : rows_ok pre n rows).

Lemma np_rfft_of : 0 < n ->
  np_rfft o (of_rows Real pre n rows) = Ok (of_rows Complex pre n (map (o_fft o) rows)).
Proof.
  intros Hn. unfold np_rfft, real_check, np_fft_rows. cbn [of_rows is_real nd_dtype negb raise_if bind nd_shape].
  rewrite split_last_snoc. cbn [bind]. destruct n; [lia|]. cbn [Nat.eqb]. now rewrite map_rows_of.
Qed.
Lemma np_ifft_of : 0 < n ->
  np_ifft o (of_rows Complex pre n rows) = Ok (of_rows Complex pre n (map (o_ifft o) rows)).
Proof.
  intros Hn. unfold np_ifft, complex_check, np_fft_rows. cbn [of_rows is_complex nd_dtype negb raise_if bind nd_shape].
  rewrite split_last_snoc. cbn [bind]. destruct n; [lia|]. cbn [Nat.eqb]. now rewrite map_rows_of.
Qed.
Lemma np_cfft_of : 0 < n ->
  np_cfft o (of_rows Complex pre n rows) = Ok (of_rows Complex pre n (map (o_fft o) rows)).
Proof.
  intros Hn. unfold np_cfft, complex_check, np_fft_rows. cbn [of_rows is_complex nd_dtype negb raise_if bind nd_shape].
  rewrite split_last_snoc. cbn [bind]. destruct n; [lia|]. cbn [Nat.eqb]. now rewrite map_rows_of.
Qed.
Lemma np_irfft_of : 0 < n ->
  np_irfft o (of_rows Complex pre n rows) =
  Ok (of_rows Real pre n (map (fun r => map (o_re o) (o_ifft o r)) rows)).
Proof.
  intros Hn. unfold np_irfft, complex_check, np_fft_rows. cbn [of_rows is_complex nd_dtype negb raise_if bind nd_shape].
  rewrite split_last_snoc. cbn [bind]. destruct n; [lia|]. cbn [Nat.eqb]. now rewrite map_rows_of.
Qed.
Lemma np_modulus_of d : d <> OtherT ->
  np_modulus o (of_rows d pre n rows) = Ok (of_rows Real pre n (map (map (o_abs o)) rows)).
Proof.
  intros Hd. unfold np_modulus, of_rows. cbn. rewrite concat_map. destruct d; congruence.
Qed.
Lemma np_cdgmm_of d b : nd_shape b = [n] -> nd_dtype b <> OtherT -> d = Complex ->
  np_cdgmm o (of_rows d pre n rows) b =
  Ok (of_rows Complex pre n (map (mul_row o (nd_data b)) rows)).
Proof.
  intros Hb Hd ->. unfold np_cdgmm. cbn [of_rows is_complex nd_dtype negb nd_shape].
  rewrite Hb. cbn [List.length trailing]. rewrite app_length. cbn [List.length].
  replace (List.length pre + 1 - 1) with (List.length pre) by lia.
  rewrite skipn_app, skipn_all, Nat.sub_diag, skipn_O. cbn [app].
  destruct (list_eq_dec Nat.eq_dec [n] [n]) as [_|H]; [|congruence].
  replace (negb (is_complex b) && negb (is_real b))%bool with false.
  2:{ unfold is_complex, is_real. destruct (nd_dtype b); congruence || reflexivity. }
  rewrite firstn_app, firstn_all, Nat.sub_diag, firstn_O, app_nil_r.
  replace (prod [n]) with n by (cbn; lia).
  unfold of_rows at 2. f_equal. f_equal. f_equal.
  change (concat rows) with (nd_data (of_rows Complex pre n rows)). now rewrite chunks_of.
Qed.
Lemma np_cdgmm_mismatch b d : nd_shape b <> [n] -> (List.length (nd_shape b) = 1)%nat -> d = Complex ->
  np_cdgmm o (of_rows d pre n rows) b = Err RuntimeError.
Proof.
  intros Hb Hl ->. unfold np_cdgmm. cbn [of_rows is_complex nd_dtype negb nd_shape].
  destruct (list_eq_dec _ _ _) as [E|_]; [exfalso|reflexivity].
  rewrite Hl in E. cbn [trailing] in E. rewrite app_length in E. cbn [List.length] in E.
  replace (List.length pre + 1 - 1) with (List.length pre) in E by lia.
  rewrite skipn_app, skipn_all, Nat.sub_diag, skipn_O in E. cbn [app] in E. congruence.
Qed.
Lemma np_subsample_of k : (0 < k)%nat -> Nat.divide k n ->
  np_subsample o (of_rows Complex pre n rows) (PInt (Z.of_nat k)) =
  Ok (of_rows Complex pre (n / k) (map (periodize_row o k (n / k)) rows)).
Proof.
  intros Hk [m Hm]. unfold np_subsample, complex_check.
  cbn [of_rows is_complex nd_dtype negb raise_if bind nd_shape]. rewrite split_last_snoc. cbn [bind].
  destruct (Z.eqb_spec (Z.of_nat k) 0); [lia|]. destruct (Z.ltb_spec (Z.of_nat k) 0); [lia|].
  rewrite Nat2Z.id. rewrite prod_snoc, prod_app.
  assert (E : n / k = m) by (subst n; apply Nat.div_mul; lia).
  rewrite E. destruct (Nat.eqb_spec (prod pre * prod [k; m]) (prod pre * n)) as [_|Hne].
  - now rewrite map_rows_of.
  - exfalso. apply Hne. subst n. cbn. lia.
Qed.
Lemma np_pad_of d l r : (l < n)%nat -> (r < n)%nat ->
  np_pad o (of_rows d pre n rows) (Z.of_nat l) (Z.of_nat r) =
  Ok (of_rows d pre (l + n + r) (map (pad_reflect_row o l r n) rows)).
Proof.
  intros Hl Hr'. unfold np_pad. cbn [of_rows nd_shape]. rewrite split_last_snoc. cbn [bind].
  replace ((Z.of_nat n <=? Z.of_nat l) || (Z.of_nat n <=? Z.of_nat r))%Z with false
    by (symmetry; apply orb_false_iff; split; apply Z.leb_gt; lia).
  replace ((Z.of_nat l <? 0) || (Z.of_nat r <? 0))%Z with false
    by (symmetry; apply orb_false_iff; split; apply Z.ltb_ge; lia).
  rewrite !Nat2Z.id. now rewrite map_rows_of.
Qed.
Lemma np_unpad_of d a b : (0 <= a)%Z -> (0 <= b)%Z ->
  np_unpad (of_rows d pre n rows) a b =
  Ok (of_rows d pre (Nat.min (Z.to_nat b) n - Nat.min (Z.to_nat a) n)
       (map (slice (Z.to_nat a) (Z.to_nat b)) rows)).
Proof.
  intros Ha Hb. unfold np_unpad. cbn [of_rows nd_shape]. rewrite split_last_snoc. cbn [bind].
  now rewrite map_rows_of.
Qed.
Lemma np_average_of :
  np_average_global o (of_rows Real pre n rows) = Ok (of_rows Real pre 1 (map (fun r => [osum o r]) rows)).
Proof.
  unfold np_average_global, real_check. cbn [of_rows is_real nd_dtype negb raise_if bind nd_shape].
  rewrite split_last_snoc. cbn [bind]. now rewrite map_rows_of.
Qed.
Lemma np_reshape_input_of d : 0 < n ->
  np_reshape_input (of_rows d pre n rows) [n] = Ok (of_rows d [prod pre; 1] n rows).
Proof.
  intros Hn. unfold np_reshape_input, reshape_infer. cbn [of_rows nd_shape].
  rewrite prod_snoc. replace (prod [1; n]) with n by (cbn; lia).
  destruct (Nat.eqb_spec n 0); [lia|]. rewrite Nat.mod_mul, Nat.div_mul by lia. reflexivity.
Qed.
Lemma np_reshape_output_of d batch : prod batch = prod pre ->
  np_reshape_output (of_rows d pre n rows) batch 1 = Ok (of_rows d batch n rows).
Proof.
  intros E. unfold np_reshape_output, reshape. cbn [of_rows nd_shape trailing].
  rewrite app_length. cbn [List.length]. replace (List.length pre + 1 - 1) with (List.length pre) by lia.
  rewrite skipn_app, skipn_all, Nat.sub_diag, skipn_O. cbn [app].
  rewrite !prod_snoc, E, Nat.eqb_refl. reflexivity.
Qed.
End Ops.

(** ** Stacking *)
Lemma firstn_skipn_concat {A} n (rows : list (list A)) i : Forall (fun r => List.length r = n) rows ->
  firstn n (skipn (i * n) (concat rows)) = nth i rows [].
Proof.
  intros H. revert i. induction H as [|r rows Hr F IH]; intros i.
  - cbn. rewrite skipn_nil, firstn_nil. destruct i; reflexivity.
  - destruct i as [|i]; cbn [concat nth].
    + rewrite skipn_O, firstn_app, Hr, Nat.sub_diag, firstn_O, app_nil_r. now apply firstn_all2; lia.
    + rewrite skipn_app. replace (S i * n) with (n + i * n) by lia.
      rewrite (skipn_all2 r) by lia. rewrite Hr. replace (n + i * n - n) with (i * n) by lia.
      apply IH.
Qed.

(** Interleaving: row [i] of every array in turn, for every [i]. *)
Definition interleave {K} (m : nat) (Rs : list (list (list K))) : list (list K) :=
  concat (map (fun i => map (fun R => nth i R []) Rs) (seq 0 m)).

Lemma stack_of {K} d pre n (Rs : list (list (list K))) : Rs <> [] ->
  Forall (rows_ok pre n) Rs ->
  stack (map (of_rows d pre n) Rs) (-2) =
  Ok (of_rows d (pre ++ [List.length Rs]) n (interleave (prod pre) Rs)).
Proof.
  intros Hne HF. destruct Rs as [|R0 Rs0]; [congruence|]. set (Rs := R0 :: Rs0) in *.
  unfold stack. change (map (of_rows d pre n) Rs) with (of_rows d pre n R0 :: map (of_rows d pre n) Rs0) at 1.
  cbn beta iota. cbn [of_rows nd_shape]. rewrite app_length. cbn [List.length].
  replace (-2 + Z.of_nat (List.length pre + 1) + 1)%Z with (Z.of_nat (List.length pre)) by lia.
  change (-2 <? 0)%Z with true. cbn iota.
  destruct (Z.ltb_spec (Z.of_nat (List.length pre)) 0); [lia|]. rewrite Nat2Z.id.
  unfold stack_at. change (map (of_rows d pre n) Rs) with (of_rows d pre n R0 :: map (of_rows d pre n) Rs0) at 1.
  cbn beta iota. cbn [of_rows nd_shape nd_dtype].
  destruct (Nat.ltb_spec (List.length (pre ++ [n])) (List.length pre)) as [H0|_]; [rewrite app_length in H0; lia|].
  replace (forallb _ _) with true.
  2:{ symmetry. apply forallb_forall. intros y Hy. apply in_map_iff in Hy. destruct Hy as (R & <- & _).
      cbn [of_rows nd_shape]. destruct (list_eq_dec Nat.eq_dec _ _); congruence. }
  rewrite firstn_app, firstn_all, Nat.sub_diag, firstn_O, app_nil_r.
  rewrite skipn_app, skipn_all, Nat.sub_diag, skipn_O. cbn [app]. rewrite map_length. 
  replace (prod [n]) with n by (cbn; lia).
  unfold of_rows. rewrite <- app_assoc. cbn [app]. f_equal. f_equal. unfold interleave.
  assert (G : forall l : list nat,
    concat (map (fun i => concat (map (fun y : nd K => firstn n (skipn (i * n) (nd_data y)))
        (map (fun rows => mk_nd d (pre ++ [n]) (concat rows)) Rs))) l) =
    concat (concat (map (fun i => map (fun R => nth i R []) Rs) l))).
  { induction l as [|i l IH]; cbn [map concat]; [reflexivity|].
    rewrite concat_app, IH. f_equal. f_equal. rewrite map_map. apply map_ext_in. intros R HR. cbn [nd_data].
    apply firstn_skipn_concat. rewrite Forall_forall in HF. apply (HF R HR). }
  apply G.
Qed.

Lemma interleave_ok {K} m n pre (Rs : list (list (list K))) : m = prod pre -> Forall (rows_ok pre n) Rs ->
  rows_ok (pre ++ [List.length Rs]) n (interleave m Rs).
Proof.
  intros -> HF. split.
  - unfold interleave. rewrite prod_snoc.
    rewrite (concat_len (List.length Rs)), map_length, seq_length; [reflexivity|].
    apply Forall_map. apply Forall_forall. intros i _. now rewrite map_length.
  - unfold interleave. apply Forall_forall. intros r Hr. apply in_concat in Hr. destruct Hr as (l & Hl & Hr).
    apply in_map_iff in Hl. destruct Hl as (i & <- & Hi). apply in_map_iff in Hr. destruct Hr as (R & <- & HR).
    rewrite Forall_forall in HF. destruct (HF R HR) as [H1 H2]. rewrite Forall_forall in H2. apply H2.
    apply nth_In. apply in_seq in Hi. lia.
Qed.

Lemma nth_concat_const {A} (c : nat) (ls : list (list A)) i k dflt :
  Forall (fun l => List.length l = c) ls -> k < c -> nth (i * c + k) (concat ls) dflt = nth k (nth i ls []) dflt.
Proof.
  intros H Hk. revert i. induction H as [|l ls Hl F IH]; intros i.
  - destruct i; cbn; destruct k; try reflexivity; destruct (_ + _); reflexivity.
  - destruct i as [|i]; cbn [concat nth].
    + apply app_nth1. lia.
    + rewrite app_nth2 by lia. rewrite Hl. replace (S i * c + k - c) with (i * c + k) by lia. apply IH.
Qed.

(** Row [k] of block [b] of the stack is row [b] of array [k]. *)
Lemma interleave_nth {K} m (Rs : list (list (list K))) b k : b < m -> k < List.length Rs ->
  nth (b * List.length Rs + k) (interleave m Rs) [] = nth b (nth k Rs []) [].
Proof.
  intros Hb Hk. unfold interleave. rewrite nth_concat_const; [|apply Forall_map, Forall_forall; intros; apply map_length|exact Hk].
  rewrite (nth_indep _ _ (map (fun R => nth 0 R []) Rs)) by (rewrite map_length, seq_length; exact Hb).
  rewrite (map_nth (fun i => map (fun R => nth i R []) Rs)). rewrite seq_nth by exact Hb. cbn [plus].
  rewrite (nth_indep _ _ (nth b [] [])) by (rewrite map_length; exact Hk).
  now rewrite (map_nth (fun R => nth b R [])).
Qed.
