(** C38: a frequential averaging scale F much shorter than 2**J_fr can leave fewer padded bins than first-order wavelets; the
    object is constructed, and every call raises. *)
From Coq Require Import String Reals ZArith QArith Qpower Qround Qminmax List Bool Arith Lia Lqa.
From Coquelicot Require Import Complex.
From Verif Require Import Base BaseProofs NdArray NdProofs Backend Core1d Utils1d Utils1dProofs Frontend1d Core1dProofs Frontend1dProofs
  Factory1d FactoryProofs ComplexOps FilterBank1d FilterBank1dProofs Construct1d Jtfs JtfsFront JtfsConstruct JtfsTotal PropJtfs Tf1d TfFront PropTf PropTfBack.
Import ListNotations.
Local Open Scope Z_scope.
Local Open Scope res_scope.

(** A call can only return when the padded frequency axis has room for all first-order wavelets. *)
Theorem C38_room_needed : forall (s : jtfs (nd C) R) x y,
  jtfs_scattering np sgnR s x = Ok y -> Z.of_nat (List.length (s_psi1 (t_base s))) <= f_N (t_phi_fr s).
Proof.
  intros s x y E. unfold jtfs_scattering in E. inv_bind E. clear E. match goal with H : jpaths _ _ _ _ = _ |- _ => rename H into G end.
  unfold jpaths in G. inv_bind G. inv_bind G. inv_bind G. match goal with p : (list nat * nat)%type |- _ => destruct p as [batch n] end.
  do 7 inv_bind G. clear G. match goal with H : joint_scattering _ _ _ _ _ _ _ _ _ _ _ _ = _ |- _ => rename H into G end. unfold joint_scattering in G. inv_bind G.
  match goal with p : (path _ * wpath _ * list _)%type |- _ => destruct p as [[p0 S1] Y] end. inv_bind G. clear G.
  match goal with H : frequency_scattering _ _ _ _ _ _ _ _ = _ |- _ => rename H into G end. unfold frequency_scattering in G. inv_bind G. inv_bind G. clear G.
  match goal with H : be_pad_frequency _ _ _ = _ |- _ => rename H into G end. cbn [numpy_backend be_pad_frequency] in G. unfold np_pad_frequency in G. inv_bind G.
  match goal with p : (list nat * nat)%type |- _ => destruct p as [pre m] end. destruct (Z.ltb_spec (f_N (t_phi_fr s) - w_n1_max S1) 0) as [|Hle]; [discriminate|].
  assert (w_n1_max S1 = Z.of_nat (List.length (s_psi1 (t_base s)))) as <-; [|lia].
  match goal with H : widthfirst _ _ _ _ _ _ _ = _ |- _ => rename H into W end. unfold widthfirst in W. do 5 inv_bind W. injection W as _ <- _. cbn [w_n1_max].
  f_equal. match goal with H : mapM (width1 _ _ _ _ _) _ = Ok ?l |- List.length ?l = _ => exact (mapM_length _ _ _ H) end.
Qed.
Print Assumptions C38_room_needed.

(** With Q = 1 and F = 1, whenever J + 1 is between 1 and 2**J_fr - 9 above a positive multiple of 2**J_fr: the smallest case is
    J_fr = 4, J = 16.  NumPy raises on every input, JAX and TensorFlow on every input without an empty axis. *)
Theorem C38_no_room_refuted : forall support J_fr m r N format out, (forall n t, 0 <= support n t) -> 0 <= J_fr -> 1 <= m -> 1 <= r -> r + 8 < 2 ^ J_fr ->
  let J := m * 2 ^ J_fr + r - 1 in 2 ^ J <= N ->
  let p := default_jparams J N 1 J_fr (TNum 1) format in
  exists s, TimeFrequencyScattering support p out = Ok s /\
    Z.of_nat (List.length (s_psi1 (t_base s))) = J + 1 /\ f_N (t_phi_fr s) = m * 2 ^ J_fr /\ f_N (t_phi_fr s) < J + 1 /\
    (forall x, exists e, jtfs_scattering np sgnR s x = Err e) /\
    (forall x, ~ In 0%nat (nd_shape x) -> (exists e, jax_callj s x = Err e) /\ (forall d, exists e, tf_callj s (mk_tf d x) = Err e)).
Proof.
  intros support J_fr m r N format out Hsup HJf Hm Hr Hr8 J HN p. pose proof (pow2_pos J_fr HJf) as HK. assert (HJ : 0 <= J) by (unfold J; nia).
  assert (EN : N_padded_fr_of ((J + 1) * 1) J_fr 1 = m * 2 ^ J_fr).
  { unfold N_padded_fr_of. rewrite Z.max_l by exact HJf. f_equal.
    assert (Em : (Qmin 1 (Qpower 2 J_fr) == 1)%Q).
    { apply Q.min_l. change 2%Q with (inject_Z 2). rewrite <- Zpower_Qpower by exact HJf. unfold Qle. cbn. lia. }
    rewrite (Qfloor_comp _ (((J + 1 + 8) # (Z.to_pos (2 ^ J_fr)))%Q)).
    - cbn [Qfloor]. rewrite Z2Pos.id by exact HK. symmetry. apply (Z.div_unique _ _ _ (r + 8)); [lia|]. unfold J. lia.
    - rewrite Em. rewrite (Qmake_Qdiv (J + 1 + 8)), Z2Pos.id by exact HK. rewrite Z.mul_1_r. change (8 * 1)%Q with (inject_Z 8). now rewrite <- inject_Z_plus. }
  assert (EF : T_of (TNum 1) J_fr ((J + 1) * 1) = Ok 1%Q).
  { unfold T_of, parse_T. rewrite (proj2 (Qltb_false _ _)); [reflexivity|]. unfold Qle. cbn. lia. }
  destruct (jtfs_instance support J N 1 J_fr (TNum 1) 1%Q out format) as (s & Hs); try assumption; try lia; try (cbn; lia); try (rewrite EN; nia).
  change (TimeFrequencyScattering support p out = Ok s) in Hs. exists s. split; [exact Hs|].
  assert (EQ : Q_of (p_Q (jp_base p)) = Ok [QI 1; QI 1]) by reflexivity.
  pose proof (constructed_psi1 _ _ _ _ 1 (QI 1) (HJ : 0 <= p_J (jp_base p)) Hs EQ) as (E & _ & _).
  assert (Hn : Z.of_nat (List.length (s_psi1 (t_base s))) = J + 1).
  { rewrite <- (map_length params_of), E. change (p_J (jp_base p)) with J.
    rewrite (anden_unique J 1 sigma0 r_psi _ _ (anden_list_ok J 1 HJ ltac:(lia)) (anden_Q1 J HJ)). rewrite map_length, seq_length. lia. }
  assert (HF : f_N (t_phi_fr s) = m * 2 ^ J_fr).
  { pose proof Hs as G. apply new_jtfs_inv in G. destruct G as (pb & Q_fr & q0' & q1' & F' & Epb & _ & _ & EQ' & EF' & _ & _ & _ & _ & Ephi & _).
    assert (Eq : p_Q pb = QInt 1) by now rewrite Epb. rewrite Eq in EQ'. injection EQ' as <- _.
    change (T_of (TNum 1) J_fr ((J + 1) * 1) = Ok F') in EF'. rewrite EF in EF'. injection EF' as <-.
    apply factory_inv1 in Ephi; [|cbn; lia]. destruct Ephi as (_ & _ & EN' & _). rewrite EN'.
    change (Z.of_nat (Z.to_nat (N_padded_fr_of ((J + 1) * 1) J_fr 1)) = m * 2 ^ J_fr). rewrite EN. nia. }
  assert (Hlt : f_N (t_phi_fr s) < J + 1) by (rewrite HF; unfold J; lia). repeat (split; [assumption|]).
  assert (Hnp : forall x, exists e, jtfs_scattering np sgnR s x = Err e).
  { intros x. destruct (jtfs_scattering np sgnR s x) as [y|e] eqn:Ey; [|now exists e]. apply C38_room_needed in Ey. lia. }
  split; [exact Hnp|]. intros x Hx. destruct (Hnp x) as [e He]. split.
  - destruct (C82_jax_joint support p out x) as [_ G]. destruct (G Hx) as [_ G2]. unfold TimeFrequencyScatteringJax in G2. rewrite Hs in G2. cbn [bind] in G2.
    destruct (G2 e He) as [A|[_ A]]; eexists; exact A.
  - intros d. destruct (tf_callj s (mk_tf d x)) as [y|e'] eqn:Ey; [|now exists e']. exfalso.
    assert (G : (s <- TimeFrequencyScatteringTensorFlow support p out ;; tf_callj s (mk_tf d x)) = Ok y) by (unfold TimeFrequencyScatteringTensorFlow; now rewrite Hs).
    apply C82_tensorflow_joint_converse in G; [|exact Hx]. rewrite Hs in G. cbn [bind] in G. congruence.
Qed.
Print Assumptions C38_no_room_refuted.
(** J_fr = 4, J = 16, signals of 2**16 samples. *)
Example C38_no_room_instance : forall format out, exists s,
  TimeFrequencyScattering (fun _ _ => 0) (default_jparams 16 (2 ^ 16) 1 4 (TNum 1) format) out = Ok s /\
  List.length (s_psi1 (t_base s)) = 17%nat /\ f_N (t_phi_fr s) = 16.
Proof.
  intros format out. destruct (C38_no_room_refuted (fun _ _ => 0) 4 1 1 (2 ^ 16) format out) as (s & A & B & D & _); try (intros; lia). exists s. split; [exact A|]. split; [|exact D].
  apply Nat2Z.inj. rewrite B. reflexivity.
Qed.
