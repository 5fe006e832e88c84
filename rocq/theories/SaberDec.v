(** * SaberDec: the noise equation and correctness of decryption. *)
From Coq Require Import ZArith List Lia Bool.
From Verif Require Import Base Bits SaberPoly SaberCodec2 SaberCodec3 Ring SaberRing SaberKem
  SaberVec SaberNoise SaberSpec.
Import ListNotations.
Open Scope Z_scope.
Local Opaque star E pmul padd pzero.

(** ** Well-formedness of sampled values *)
Lemma read_many_length : forall {A} k (rd : rng -> A * rng) x, length (fst (read_many k rd x)) = k.
Proof.
  induction k as [|k IH]; intros rd x; cbn; auto.
  destruct (rd x) as [a x1]. specialize (IH rd x1). destruct (read_many k rd x1). cbn in *. lia.
Qed.
Lemma read_many_forall : forall {A} (P : A -> Prop) k (rd : rng -> A * rng) x,
  (forall y, P (fst (rd y))) -> Forall P (fst (read_many k rd x)).
Proof.
  induction k as [|k IH]; intros rd x H; cbn; auto.
  specialize (H x) as Hx. destruct (rd x) as [a x1]. specialize (IH rd x1 H).
  destruct (read_many k rd x1). cbn in *. constructor; auto.
Qed.

Lemma read_poly_wf : forall x, wf_poly (fst (read_poly x)).
Proof.
  intro x. unfold read_poly. pose proof (draw_bytes (13 * DEG / 8) x) as H.
  destruct (draw (13 * DEG / 8) x) as [buf x']. cbn [fst] in *. apply from13_wf. exact H.
Qed.

Lemma gen_matrix_wf : forall h I seed, wf_matrix (sK I) (gen_matrix h I seed).
Proof.
  intros h I seed. split; [apply read_many_length|]. apply read_many_forall. intro y. split.
  - apply read_many_length.
  - apply read_many_forall. apply read_poly_wf.
Qed.

Lemma cbd_coeffs_wf : forall I b, param_set I ->
  length (cbd_coeffs I b) = 4%nat /\ Forall is_u16 (cbd_coeffs I b).
Proof. intros I b []; cbn; (split; [reflexivity|repeat constructor; apply u16_range]). Qed.

Lemma cbd_wf : forall I x, param_set I -> wf_poly (fst (cbd I x)).
Proof.
  intros I x HI. unfold cbd.
  pose proof (read_many_length (DEG / 4) (draw (cbd_block I)) x) as HL.
  destruct (read_many (DEG / 4) (draw (cbd_block I)) x) as [bs x']. cbn [fst] in *. split.
  - rewrite (flat_map_length_const _ 4).
    + rewrite HL. reflexivity.
    + intros b _. apply cbd_coeffs_wf. exact HI.
  - apply (Forall_flat_map (fun _ => True)).
    + intros b _. apply cbd_coeffs_wf. exact HI.
    + apply Forall_forall. auto.
Qed.

Lemma gen_secret_wf : forall h I seed, param_set I -> wf_vec (sK I) (gen_secret h I seed).
Proof.
  intros h I seed HI. split; [apply read_many_length|]. apply read_many_forall.
  intro y. apply cbd_wf. exact HI.
Qed.

Definition rnd_vec (v : vec) : vec := map rnd_poly v.
Lemma rnd_vec_eq : forall v, vshr (vadd_c v 4) 3 = rnd_vec v.
Proof. intro v. unfold vshr, vadd_c, rnd_vec. rewrite map_map. reflexivity. Qed.
Lemma rnd_vec_wf : forall K v, wf_vec K v -> wf_vec K (rnd_vec v).
Proof.
  intros K v [HL H]. split; [unfold rnd_vec; rewrite map_length; exact HL|].
  apply Forall_map. eapply Forall_impl; [|exact H]. intros p Hp. apply rnd_wf. apply Hp.
Qed.
Lemma mat_mul_wf : forall K M v, length M = K -> wf_vec K (mat_mul M v).
Proof.
  intros K M v H. unfold mat_mul. split; [rewrite map_length; exact H|].
  apply Forall_map, Forall_forall. intros. apply vmul_wf.
Qed.
Lemma mat_mul_transpose_wf : forall K M v, length M = K -> wf_vec K (mat_mul_transpose M v).
Proof.
  intros K M v H. unfold mat_mul_transpose. split; [rewrite map_length, seq_length; exact H|].
  apply Forall_map, Forall_forall. intros i _.
  apply (fold_padd_wf (fun j => pmul (nth i (nth j M []) []) (nth j v []))); [apply pzero_wf|].
  intro. apply pmul_wf.
Qed.

Lemma keypair_wf : forall h I seed ns, param_set I ->
  length seed = SEEDBYTES -> is_bytes seed ->
  wf_pk I (fst (indcpa_keypair h I seed ns)) /\
  wf_vec (sK I) (sk_vec (snd (indcpa_keypair h I seed ns))).
Proof.
  intros h I seed ns HI HL HB. unfold indcpa_keypair. cbn [fst snd sk_vec]. split.
  - split; [|split]; cbn [pk_vec pk_seed]; auto. rewrite rnd_vec_eq. apply rnd_vec_wf, mat_mul_wf.
    apply gen_matrix_wf.
  - apply gen_secret_wf. exact HI.
Qed.

(** ** Bridging the integer specification *)
Local Transparent star E.
Lemma E_zmul : forall a b k, (k < 256)%nat ->
  negacyclic 256 a b k = star (E a) (E b) (Z.of_nat k).
Proof.
  intros a b k Hk. unfold star, E. change DEG with 256%nat. apply negacyclic_nconv. exact Hk.
Qed.
Local Opaque star E.

Lemma sum_list_lsum : forall f l, sum_list (map f l) = lsum f l.
Proof. induction l; cbn; auto. rewrite IHl. reflexivity. Qed.

Lemma zdot_dot : forall K a b k, (k < 256)%nat ->
  zdot K a b k = dot K (V a) (V b) (Z.of_nat k).
Proof.
  intros K a b k Hk. unfold zdot, dot. rewrite sum_list_lsum. apply lsum_ext.
  intros j _. unfold V. apply E_zmul. exact Hk.
Qed.

Definition negacyclic_opaque := negacyclic.
Lemma E_map_seq : forall f F, anti F -> (forall k, (k < 256)%nat -> f k = F (Z.of_nat k)) ->
  forall k, E (map f (seq 0 256)) k = F k.
Proof.
  intros f F HF H. apply (antiper_eq DEG); [apply DEG_pos|apply E_anti|exact HF|].
  intros k Hk. replace k with (Z.of_nat (Z.to_nat k)) by lia.
  rewrite E_at by lia. unfold at_.
  rewrite (nth_map_in f (seq 0 256) (Z.to_nat k) 0 0%nat)
    by (rewrite seq_length; unfold DEG in Hk; lia).
  rewrite seq_nth by (unfold DEG in Hk; lia). apply H. unfold DEG in Hk; lia.
Qed.

Lemma V_zmat : forall K A s i k, (i < K)%nat -> V (zmat K A s) i k = dot K (V (nth i A [])) (V s) k.
Proof.
  intros K A s i k Hi. unfold V at 1, zmat.
  rewrite (nth_map_in _ (seq 0 K) i [] 0%nat) by (rewrite seq_length; exact Hi).
  rewrite seq_nth by exact Hi. cbn [plus].
  apply E_map_seq; [apply dot_anti; intro; apply V_anti|]. intros. apply zdot_dot. assumption.
Qed.

Lemma V_transpose : forall K (A : matrix) i j k, (i < K)%nat -> (j < K)%nat ->
  V (nth i (ztranspose K A) []) j k = V (nth j A []) i k.
Proof.
  intros K A i j k Hi Hj. unfold ztranspose, V.
  rewrite (nth_map_in _ (seq 0 K) i [] 0%nat) by (rewrite seq_length; exact Hi).
  rewrite (nth_map_in _ (seq 0 K) j [] 0%nat) by (rewrite seq_length; exact Hj).
  rewrite !seq_nth by assumption. reflexivity.
Qed.

Lemma round_err_rerr : forall x, round_err x = rerr x.
Proof.
  intro x. unfold round_err, rerr. pose proof (Z.div_mod (x + 4) 8 ltac:(lia)). lia.
Qed.
Lemma rerr_mod : forall x y, x mod 65536 = y mod 65536 -> rerr x = rerr y.
Proof.
  intros x y H. unfold rerr. f_equal. rewrite <- (Zplus_mod_idemp_l x), <- (Zplus_mod_idemp_l y).
  rewrite <- (mod_mod_divide x 8 65536), <- (mod_mod_divide y 8 65536), H;
    try lia; try (exists 8192; reflexivity).
Qed.

(** Centred representatives do not change anything modulo 2^16. *)
Lemma signed16_mod : forall x, signed16 x mod 65536 = x mod 65536.
Proof.
  intro x. unfold signed16. destruct (x <? 32768); [reflexivity|].
  replace (x - 65536) with (x + (-1) * 65536) by lia. apply Z_mod_plus_full.
Qed.
Definition csec (v : vec) : vec := map (map signed16) v.
Lemma V_csec : forall v j, (forall p, In p v -> length p = DEG) -> (j < length v)%nat ->
  cong 65536 (V (csec v) j) (V v j).
Proof.
  intros v j H Hj. unfold V, csec.
  rewrite (nth_map_in (map signed16) v j [] []) by exact Hj.
  assert (HL : length (nth j v []) = DEG) by (apply H, nth_In; exact Hj).
  apply cong_coeffs; try apply E_anti. intros k Hk. rewrite !E_at by exact Hk.
  rewrite map_at by lia. apply signed16_mod.
Qed.

(** 8 * round(x) = x + round_err(y) whenever y is x modulo 2^16. *)
Lemma V_rnd : forall K (x : vec) (y : vec) j, wf_vec K x -> length y = K ->
  (forall p, In p y -> length p = DEG) -> (j < K)%nat ->
  cong 65536 (V x j) (V y j) ->
  cong 65536 (fun k => 8 * V (rnd_vec x) j k) (fun k => V x j k + V (map (map round_err) y) j k).
Proof.
  intros K x y j Hx Hy Hyl Hj Hc. unfold V in *.
  assert (Lx : length (nth j x []) = DEG).
  { eapply wf_in_length; [exact Hx|]. apply nth_In. rewrite (proj1 Hx). exact Hj. }
  assert (Ly : length (nth j y []) = DEG) by (apply Hyl, nth_In; rewrite Hy; exact Hj).
  unfold rnd_vec. rewrite (nth_map_in rnd_poly x j [] []) by (rewrite (proj1 Hx); exact Hj).
  rewrite (nth_map_in (map round_err) y j [] []) by (rewrite Hy; exact Hj).
  eapply cong_trans; [apply E_rnd; exact Lx|]. apply cong_add; [apply cong_refl|].
  apply cong_coeffs; try apply E_anti. intros k Hk. rewrite !E_at by exact Hk.
  rewrite !map_at by lia. rewrite round_err_rerr. f_equal. apply rerr_mod.
  specialize (Hc (Z.of_nat k)). rewrite !E_at in Hc by exact Hk. exact Hc.
Qed.

Lemma cong_8 : forall F G, cong 8192 (fun k => 8 * F k) (fun k => 8 * G k) -> cong 1024 F G.
Proof.
  intros F G H k. specialize (H k). cbv beta in H.
  change 8192 with (8 * 1024) in H. rewrite !Zmult_mod_distr_l in H. lia.
Qed.
Lemma cong_8' : forall F G, cong 1024 F G -> cong 8192 (fun k => 8 * F k) (fun k => 8 * G k).
Proof.
  intros F G H k. cbv beta. change 8192 with (8 * 1024). rewrite !Zmult_mod_distr_l.
  rewrite H. reflexivity.
Qed.

Lemma zmat_length : forall K A s, length (zmat K A s) = K.
Proof. intros. unfold zmat. rewrite map_length, seq_length. reflexivity. Qed.
Lemma zmat_in_length : forall K A s p, In p (zmat K A s) -> length p = DEG.
Proof.
  intros K A s p H. unfold zmat in H. apply in_map_iff in H. destruct H as [i [<- _]].
  rewrite map_length, seq_length. reflexivity.
Qed.

Section Noise.
  Variables (K : nat) (A : matrix) (s t : vec).
  Hypothesis HA : wf_matrix K A.
  Hypothesis Hs : wf_vec K s.
  Hypothesis Ht : wf_vec K t.

  Let b := rnd_vec (mat_mul A s).
  Let b' := rnd_vec (mat_mul_transpose A t).
  Let rowlen : forall row : vec, In row A -> length row = K.
  Proof. intros row Hr. destruct HA as [_ H]. rewrite Forall_forall in H. apply H in Hr. apply Hr. Qed.

  Let Vs : forall j, (j < K)%nat -> cong 65536 (V (csec s) j) (V s j).
  Proof.
    intros j Hj. apply V_csec; [|rewrite (proj1 Hs); exact Hj].
    intros p Hp. exact (wf_in_length K s p Hs Hp).
  Qed.
  Let Vt : forall j, (j < K)%nat -> cong 65536 (V (csec t) j) (V t j).
  Proof.
    intros j Hj. apply V_csec; [|rewrite (proj1 Ht); exact Hj].
    intros p Hp. exact (wf_in_length K t p Ht Hp).
  Qed.

  Let ee := map (map round_err) (zmat K A (csec s)).
  Let ee' := map (map round_err) (zmat K (ztranspose K A) (csec t)).

  Lemma b_eq : forall j, (j < K)%nat ->
    cong 65536 (fun k => 8 * V b j k) (fun k => V (mat_mul A s) j k + V ee j k).
  Proof.
    intros j Hj. apply (V_rnd K); auto.
    - apply mat_mul_wf. apply HA.
    - apply zmat_length.
    - intros p. apply zmat_in_length.
    - eapply cong_trans.
      { apply (V_mat_mul 65536 ltac:(lia) d16 K A s j); auto; [apply HA|apply Hs]. }
      apply cong_sym. eapply cong_trans; [intro k; rewrite V_zmat by exact Hj; reflexivity|].
      apply cong_dot; [intros; apply cong_refl|exact Vs].
  Qed.
  Lemma b'_eq : forall j, (j < K)%nat ->
    cong 65536 (fun k => 8 * V b' j k) (fun k => V (mat_mul_transpose A t) j k + V ee' j k).
  Proof.
    intros j Hj. apply (V_rnd K); auto.
    - apply mat_mul_transpose_wf. apply HA.
    - apply zmat_length.
    - intros p. apply zmat_in_length.
    - eapply cong_trans.
      { apply (V_mat_mul_transpose 65536 ltac:(lia) d16 K A t j); auto; apply HA. }
      apply cong_sym. eapply cong_trans; [intro k; rewrite V_zmat by exact Hj; reflexivity|].
      apply cong_dot; [|exact Vt].
      intros i Hi k. rewrite V_transpose by assumption. reflexivity.
  Qed.

  (** The noise equation: 8 <b,t> - 8 <b',s> = noise modulo 8192. *)
  Lemma noise_eq : forall k, (k < 256)%nat ->
    (8 * (at_ (vmul b t) k - at_ (vmul b' s) k)) mod 8192 = noise K A (csec s) (csec t) k mod 8192.
  Proof.
    intros k Hk.
    assert (Hb : wf_vec K b) by (apply rnd_vec_wf, mat_mul_wf, HA).
    assert (Hb' : wf_vec K b') by (apply rnd_vec_wf, mat_mul_transpose_wf, HA).
    rewrite <- (E_at (vmul b t)), <- (E_at (vmul b' s)) by exact Hk.
    unfold noise. rewrite !zdot_dot by exact Hk. fold ee ee'. set (z := Z.of_nat k).
    rewrite <- (mod_mod_divide (8 * _) 8192 65536), <- (mod_mod_divide (_ - _) 8192 65536)
      by (try lia; apply d13).
    f_equal.
    transitivity ((dot K (fun j i => 8 * V b j i) (V t) z - dot K (fun j i => 8 * V b' j i) (V s) z)
                   mod 65536).
    { rewrite !dot_scal_l. rewrite <- Z.mul_sub_distr_l.
      rewrite (Zmult_mod 8), (Zmult_mod 8 (dot _ _ _ _ - _)). f_equal. f_equal.
      apply (cong_sub 65536 (E (vmul b t)) (dot K (V b) (V t)) (E (vmul b' s)) (dot K (V b') (V s)));
        (apply E_vmul; [lia|apply d16| |]); first [apply Hb|apply Hb'|apply Hs|apply Ht]. }
    transitivity ((dot K (fun j i => V (mat_mul A s) j i + V ee j i) (V t) z
                   - dot K (fun j i => V (mat_mul_transpose A t) j i + V ee' j i) (V s) z) mod 65536).
    { apply (cong_sub 65536 (dot K (fun j i => 8 * V b j i) (V t))
         (dot K (fun j i => V (mat_mul A s) j i + V ee j i) (V t))
         (dot K (fun j i => 8 * V b' j i) (V s))
         (dot K (fun j i => V (mat_mul_transpose A t) j i + V ee' j i) (V s)));
        apply cong_dot; intros; try apply cong_refl; [apply b_eq|apply b'_eq]; assumption. }
    rewrite !dot_add_l.
    assert (T : (dot K (V (mat_mul A s)) (V t) z) mod 65536
              = (dot K (V (mat_mul_transpose A t)) (V s) z) mod 65536).
    { transitivity (dot K (fun i => dot K (V (nth i A [])) (V s)) (V t) z mod 65536).
      { apply cong_dot; intros; try apply cong_refl.
        apply (V_mat_mul 65536 ltac:(lia) d16 K A s); auto; [apply HA|apply Hs]. }
      rewrite dot_transpose by (intros; apply V_anti).
      rewrite dot_comm by (intros; try apply V_anti; apply dot_anti; intro; apply V_anti).
      apply cong_dot; intros; try apply cong_refl. apply cong_sym.
      apply (V_mat_mul_transpose 65536 ltac:(lia) d16 K A t); auto. apply HA. }
    assert (T1 : dot K (V ee) (V t) z mod 65536 = dot K (V ee) (V (csec t)) z mod 65536).
    { apply cong_dot; intros; try apply cong_refl. apply cong_sym. apply Vt. assumption. }
    assert (T2 : dot K (V ee') (V s) z mod 65536 = dot K (V ee') (V (csec s)) z mod 65536).
    { apply cong_dot; intros; try apply cong_refl. apply cong_sym. apply Vs. assumption. }
    revert T T1 T2.
    generalize (dot K (V (mat_mul A s)) (V t) z) (dot K (V (mat_mul_transpose A t)) (V s) z)
      (dot K (V ee) (V t) z) (dot K (V ee) (V (csec t)) z) (dot K (V ee') (V s) z)
      (dot K (V ee') (V (csec s)) z).
    intros p q u u' w w' T T1 T2.
    replace (p + u - (q + w)) with ((p - q) + (u - w)) by lia.
    rewrite Zplus_mod, (Zminus_mod p q), T, Z.sub_diag, Zmod_0_l, Z.add_0_l, Zmod_mod.
    rewrite Zminus_mod, T1, T2, <- Zminus_mod. reflexivity.
  Qed.
End Noise.
