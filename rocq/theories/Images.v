(** Evaluation of the 2-D NumPy operations on arrays of shape [pre ++ [M; N]] seen as lists of images. *)
From Coq Require Import ZArith List Bool Arith Lia.
From Verif Require Import Base BaseProofs NdArray Backend NdProofs StackProofs Backend2d.
Import ListNotations.
Local Open Scope nat_scope.

Section Img.
Context {K : Type}.
Implicit Types (f g : nat -> nat -> K) (l : list K) (z : K).

Lemma img_length M N f : List.length (img M N f) = M * N.
Proof. unfold img. now rewrite map_length, seq_length. Qed.
Lemma pos_div N u v : v < N -> (u * N + v) / N = u.
Proof. intros H. rewrite Nat.div_add_l by lia. rewrite Nat.div_small by exact H. lia. Qed.
Lemma pos_mod N u v : v < N -> (u * N + v) mod N = v.
Proof. intros H. rewrite Nat.add_comm, Nat.mod_add by lia. now apply Nat.mod_small. Qed.
Lemma pos_lt M N u v : u < M -> v < N -> u * N + v < M * N.
Proof. intros. nia. Qed.
Lemma iat_img z M N f u v : u < M -> v < N -> iat z N (img M N f) u v = f u v.
Proof.
  intros Hu Hv. unfold iat, img. rewrite (nth_map_any _ _ _ _ 0) by (rewrite seq_length; now apply pos_lt).
  rewrite seq_nth by now apply pos_lt. cbn [plus]. now rewrite pos_div, pos_mod.
Qed.
Lemma img_ext M N f g : (forall u v, u < M -> v < N -> f u v = g u v) -> img M N f = img M N g.
Proof.
  intros H. unfold img. apply map_ext_in. intros p Hp. apply in_seq in Hp. destruct N as [|N]; [lia|].
  apply H; [apply Nat.div_lt_upper_bound; lia|apply Nat.mod_upper_bound; lia].
Qed.
Lemma img_iat z M N l : List.length l = M * N -> img M N (iat z N l) = l.
Proof.
  intros Hl. apply nth_ext with (d := z) (d' := z); [now rewrite img_length|]. rewrite img_length. intros p Hp.
  unfold img. rewrite (nth_map_any _ _ _ _ 0) by (rewrite seq_length; exact Hp). rewrite seq_nth by exact Hp. cbn [plus].
  unfold iat. f_equal. destruct N as [|N]; [lia|]. rewrite Nat.mul_comm. symmetry. apply Nat.div_mod. lia.
Qed.
Lemma image_ext z M N l l' : List.length l = M * N -> List.length l' = M * N ->
  (forall u v, u < M -> v < N -> iat z N l u v = iat z N l' u v) -> l = l'.
Proof. intros H H' E. rewrite <- (img_iat z M N l H), <- (img_iat z M N l' H'). now apply img_ext. Qed.
Lemma iat_map {K'} (h : K -> K') z (z' : K') M N l u v : List.length l = M * N -> u < M -> v < N -> iat z' N (map h l) u v = h (iat z N l u v).
Proof. intros Hl Hu Hv. unfold iat. apply nth_map_any. rewrite Hl. now apply pos_lt. Qed.

(** ** Arrays of images *)
Definition of_imgs (d : dtype) (pre : list nat) (M N : nat) (ims : list (list K)) : nd K := mk_nd d (pre ++ [M; N]) (concat ims).
Definition imgs_ok (pre : list nat) (M N : nat) (ims : list (list K)) : Prop := rows_ok pre (M * N) ims.
Lemma prod2 pre M N : prod (pre ++ [M; N]) = prod pre * (M * N).
Proof. rewrite prod_app. cbn. lia. Qed.
Lemma of_imgs_intro (x : nd K) pre M N : nd_wf x -> nd_shape x = pre ++ [M; N] ->
  exists ims, x = of_imgs (nd_dtype x) pre M N ims /\ imgs_ok pre M N ims.
Proof.
  intros Hw Hs. destruct (chunks_ok (prod pre) (M * N) (nd_data x)) as (H1 & H2 & H3); [rewrite Hw, Hs; apply prod2|].
  exists (chunks (prod pre) (M * N) (nd_data x)). split; [|split; assumption].
  unfold of_imgs. rewrite H3, <- Hs. now destruct x.
Qed.
Lemma of_imgs_wf d pre M N ims : imgs_ok pre M N ims -> nd_wf (of_imgs d pre M N ims).
Proof. intros [H1 H2]. unfold nd_wf, of_imgs. cbn [nd_data nd_shape]. rewrite (concat_len (M * N)) by exact H2. now rewrite prod2, H1. Qed.
Lemma imgs_chunks pre M N ims : imgs_ok pre M N ims -> chunks (prod pre) (M * N) (concat ims) = ims.
Proof. intros [H1 H2]. rewrite <- H1. now apply chunks_concat. Qed.
Lemma imgs_ok_map pre M N M' N' (f : list K -> list K) ims : (forall im, List.length im = M * N -> List.length (f im) = M' * N') -> imgs_ok pre M N ims ->
  imgs_ok pre M' N' (map f ims).
Proof. intros H [H1 H2]. split; [now rewrite map_length|]. apply Forall_map. eapply Forall_impl; [|exact H2]. exact H. Qed.
Lemma split_last2_app pre M N : split_last2 (pre ++ [M; N]) = Ok (pre, M, N).
Proof. unfold split_last2. rewrite rev_app_distr. cbn. now rewrite rev_involutive. Qed.
Lemma split_last2_inv s pre M N : split_last2 s = Ok (pre, M, N) -> s = pre ++ [M; N].
Proof.
  unfold split_last2. intros H. destruct (rev s) as [|a [|b r]] eqn:E; try discriminate. injection H as <- <- <-.
  rewrite <- (rev_involutive s), E. cbn. now rewrite <- app_assoc.
Qed.
Lemma map_imgs_of d d' pre M N M' N' (f : list K -> list K) ims : imgs_ok pre M N ims ->
  map_imgs d' M' N' f pre M N (of_imgs d pre M N ims) = of_imgs d' pre M' N' (map f ims).
Proof. intros H. unfold map_imgs, of_imgs. cbn [nd_data]. now rewrite imgs_chunks. Qed.
Lemma block_of_imgs d pre M N ims i : imgs_ok pre M N ims -> i < prod pre -> block (M * N) i (of_imgs d pre M N ims) = nth i ims [].
Proof.
  intros [H1 H2] Hi. unfold block, of_imgs. cbn [nd_data]. rewrite firstn_skipn_concat by exact H2. reflexivity.
Qed.
Lemma block_map d d' pre M N M' N' (f : list K -> list K) ims i : imgs_ok pre M N ims -> (forall im, List.length im = M * N -> List.length (f im) = M' * N') -> i < prod pre ->
  block (M' * N') i (of_imgs d' pre M' N' (map f ims)) = f (block (M * N) i (of_imgs d pre M N ims)).
Proof.
  intros H Hf Hi. rewrite !block_of_imgs by first [assumption|now apply (imgs_ok_map _ M N)].
  apply nth_map_any. destruct H as [H1 _]. now rewrite H1.
Qed.
End Img.

Section Ops2.
Context {K : Type} (o : ops K) (Ho : ops_ok o).
Notation z := (o_zero o).
Variables (pre : list nat) (M N : nat) (ims : list (list K)).
Hypothesis (Hi : imgs_ok pre M N ims).

Lemma transpose_block_length a b l : List.length (transpose_block o a b l) = a * b.
Proof.
  unfold transpose_block. rewrite (concat_len a), map_length, seq_length; [lia|].
  apply Forall_map, Forall_forall. intros j _. now rewrite map_length, seq_length.
Qed.
Lemma rows_length (f : list K -> list K) m n (l : list K) : (forall r, List.length (f r) = List.length r) -> List.length l = m * n ->
  List.length (concat (map f (chunks m n l))) = m * n.
Proof.
  intros Hf Hl. destruct (chunks_ok m n l Hl) as (H1 & H2 & _). rewrite (concat_len n), map_length, H1; [lia|].
  apply Forall_map. eapply Forall_impl; [|exact H2]. intros r Hr. now rewrite Hf.
Qed.
Lemma sep2_length (f : list K -> list K) m n im : (forall r, List.length (f r) = List.length r) -> List.length im = m * n -> List.length (sep2 o f m n im) = m * n.
Proof. intros Hf Hl. unfold sep2. rewrite transpose_block_length. lia. Qed.

Lemma np2_fft_of d d' f : 0 < M -> 0 < N -> np2_fft d' f (of_imgs d pre M N ims) = Ok (of_imgs d' pre M N (map (f M N) ims)).
Proof.
  intros HM HN. unfold np2_fft. cbn [of_imgs nd_shape]. rewrite split_last2_app. cbn [bind].
  destruct M as [|M']; [lia|]. destruct N as [|N']; [lia|]. cbn [Nat.eqb orb]. now rewrite map_imgs_of.
Qed.
Lemma np2_rfft_of : 0 < M -> 0 < N -> np2_rfft o (of_imgs Real pre M N ims) = Ok (of_imgs Complex pre M N (map (sep2 o (o_fft o) M N) ims)).
Proof. intros HM HN. unfold np2_rfft, real_check. cbn [of_imgs is_real nd_dtype negb raise_if bind]. now rewrite np2_fft_of. Qed.
Lemma np2_ifft_of : 0 < M -> 0 < N -> np2_ifft o (of_imgs Complex pre M N ims) = Ok (of_imgs Complex pre M N (map (sep2 o (o_ifft o) M N) ims)).
Proof. intros HM HN. unfold np2_ifft, complex_check. cbn [of_imgs is_complex nd_dtype negb raise_if bind]. now rewrite np2_fft_of. Qed.
Lemma np2_irfft_of : 0 < M -> 0 < N ->
  np2_irfft o (of_imgs Complex pre M N ims) = Ok (of_imgs Real pre M N (map (fun im => map (o_re o) (sep2 o (o_ifft o) M N im)) ims)).
Proof. intros HM HN. unfold np2_irfft, complex_check. cbn [of_imgs is_complex nd_dtype negb raise_if bind]. now rewrite np2_fft_of. Qed.
Lemma np2_modulus_of d : d <> OtherT -> np_modulus o (of_imgs d pre M N ims) = Ok (of_imgs Real pre M N (map (map (o_abs o)) ims)).
Proof. intros Hd. unfold np_modulus, of_imgs. cbn. rewrite concat_map. destruct d; congruence. Qed.
Lemma np2_cdgmm_of b : nd_shape b = [M; N] -> nd_dtype b <> OtherT ->
  np_cdgmm o (of_imgs Complex pre M N ims) b = Ok (of_imgs Complex pre M N (map (mul_row o (nd_data b)) ims)).
Proof.
  intros Hb Hd. unfold np_cdgmm. cbn [of_imgs is_complex nd_dtype negb nd_shape].
  rewrite Hb. cbn [List.length trailing]. rewrite app_length. cbn [List.length].
  replace (List.length pre + 2 - 2) with (List.length pre) by lia.
  rewrite skipn_app, skipn_all, Nat.sub_diag, skipn_O. cbn [app].
  destruct (list_eq_dec Nat.eq_dec [M; N] [M; N]) as [_|H]; [|congruence].
  replace (negb (is_complex b) && negb (is_real b))%bool with false.
  2:{ unfold is_complex, is_real. destruct (nd_dtype b); congruence || reflexivity. }
  rewrite firstn_app, firstn_all, Nat.sub_diag, firstn_O, app_nil_r.
  replace (prod [M; N]) with (M * N) by (cbn; lia). unfold of_imgs. cbn [nd_data]. now rewrite imgs_chunks.
Qed.
Definition unpad_img (im : list K) : list K := img (M - 2) (N - 2) (fun u v => iat z N im (u + 1) (v + 1)).
Lemma np2_unpad_of d : np2_unpad o (of_imgs d pre M N ims) = Ok (of_imgs d pre (M - 2) (N - 2) (map unpad_img ims)).
Proof. unfold np2_unpad. cbn [of_imgs nd_shape]. rewrite split_last2_app. cbn [nd_dtype]. now rewrite map_imgs_of. Qed.
(** Mean of the [k * k] blocks of frequencies. *)
Definition fold_img (k : nat) (im : list K) : list K :=
  img (M / k) (N / k) (fun u v =>
    o_divn o (osum o (map (fun i => osum o (map (fun j => iat z N im (i * (M / k) + u) (j * (N / k) + v)) (seq 0 k))) (seq 0 k))) (k * k)).
End Ops2.

Section Batch.
Context {K : Type} (o : ops K) (Ho : ops_ok o).
Notation z := (o_zero o).
Variables (B M N : nat) (ims : list (list K)).
Hypothesis (Hi : imgs_ok [B] M N ims).
Lemma np2_subsample_of k : 0 < k -> 0 < M -> 0 < N -> Nat.divide k M -> Nat.divide k N ->
  np2_subsample o (of_imgs Complex [B] M N ims) (PInt (Z.of_nat k)) = Ok (of_imgs Complex [B] (M / k) (N / k) (map (fold_img o M N k) ims)).
Proof.
  intros Hk HM HN [m Hm] [n Hn]. unfold np2_subsample, complex_check. cbn [of_imgs is_complex nd_dtype negb raise_if bind nd_shape app].
  destruct (Z.eqb_spec (Z.of_nat k) 0); [lia|]. destruct (Z.ltb_spec (Z.of_nat k) 0); [lia|]. rewrite Nat2Z.id.
  assert (Em : M / k = m) by (rewrite Hm; apply Nat.div_mul; lia). assert (En : N / k = n) by (rewrite Hn; apply Nat.div_mul; lia).
  unfold fold_img. rewrite Em, En. unfold reshape_infer, of_imgs. cbn [nd_shape prod fold_right app].
  replace (k * (m * (k * (n * 1)))) with (M * N) by (rewrite Hm, Hn; lia).
  replace (B * (M * (N * 1))) with (B * (M * N)) by lia.
  destruct (Nat.eqb_spec (M * N) 0); [nia|]. rewrite Nat.mod_mul, Nat.div_mul by assumption. cbn [Nat.eqb bind nd_shape hd nd_data].
  do 3 f_equal. replace (k * m * (k * n)) with (M * N) by (rewrite Hm, Hn; lia).
  pose proof (imgs_chunks _ _ _ _ Hi) as Hc. replace (prod [B]) with B in Hc by (cbn; lia). rewrite Hc.
  apply map_ext_in. intros im Him. apply img_ext. intros u v Hu Hv.
  f_equal. f_equal. apply map_ext_in. intros i Hi'. apply in_seq in Hi'. f_equal. apply map_ext_in. intros j Hj. apply in_seq in Hj.
  unfold iat. f_equal. rewrite Hn. nia.
Qed.
(** The padded image. *)
Definition pad_img (t b l r : nat) (im : list K) : list K :=
  img (t + M + b) (l + N + r) (fun u v => iat z N im (reflect M (Z.of_nat u - Z.of_nat t)) (reflect N (Z.of_nat v - Z.of_nat l))).
Lemma np2_pad_of d t b l r s : 0 < M -> 0 < N ->
  np2_pad o (Z.of_nat t, Z.of_nat b, Z.of_nat l, Z.of_nat r) s (of_imgs d [B] M N ims) =
  Ok (of_imgs d [B] (t + M + b) (l + N + r) (map (pad_img t b l r) ims)).
Proof.
  intros HM HN. unfold np2_pad. cbn [of_imgs nd_shape app].
  destruct (Z.ltb_spec (Z.of_nat t) 0); [lia|]. destruct (Z.ltb_spec (Z.of_nat b) 0); [lia|].
  destruct (Z.ltb_spec (Z.of_nat l) 0); [lia|]. destruct (Z.ltb_spec (Z.of_nat r) 0); [lia|]. cbn [orb].
  destruct (Nat.eqb_spec M 0); [lia|]. destruct (Nat.eqb_spec N 0); [lia|]. cbn [orb]. rewrite !Nat2Z.id. cbn [nd_dtype].
  rewrite (map_imgs_of d d [B]) by exact Hi. reflexivity.
Qed.
End Batch.
