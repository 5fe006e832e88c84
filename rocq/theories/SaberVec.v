(** * SaberVec: vectors, matrices and keys: well-formedness, codecs, algebra. *)
From Coq Require Import ZArith List Lia Bool.
From Verif Require Import Base Bits SaberPoly SaberCodec3 Ring SaberRing SaberKem.
Import ListNotations.
Open Scope Z_scope.

Inductive param_set : saber_impl -> Prop :=
| ps_light : param_set LightSaber
| ps_saber : param_set Saber
| ps_fire : param_set FireSaber.

Definition wf_vec (K : nat) (v : vec) : Prop := length v = K /\ Forall wf_poly v.
Definition wf_matrix (K : nat) (m : matrix) : Prop := length m = K /\ Forall (wf_vec K) m.
Definition wf_pk (I : saber_impl) (pk : pk_cpa) : Prop :=
  wf_vec (sK I) (pk_vec pk) /\ length (pk_seed pk) = SEEDBYTES /\ is_bytes (pk_seed pk).
Definition wf_sk (I : saber_impl) (sk : secret_key) : Prop :=
  length (sk_z sk) = KEYBYTES /\ is_bytes (sk_z sk) /\
  length (sk_hash_pk sk) = HASHBYTES /\ is_bytes (sk_hash_pk sk) /\
  wf_pk I (sk_pk_cca sk) /\ wf_vec (sK I) (sk_vec (sk_sk_cpa sk)).

Lemma fill_vec_id : forall K l, length l = K -> fill_vec K l = l.
Proof.
  intros K l H. unfold fill_vec. rewrite <- H at 1.
  rewrite firstn_app, firstn_all, Nat.sub_diag. cbn [firstn]. apply app_nil_r.
Qed.

Lemma map_chunks_flat_map : forall (f : bytes -> poly) (g : poly -> bytes) n (l : vec),
  (0 < n)%nat -> (forall x, In x l -> length (g x) = n) ->
  map f (chunks_exact n (flat_map g l)) = map (fun x => f (g x)) l.
Proof.
  intros f g n l Hn H. rewrite flat_map_concat_map, chunks_of_concat; auto.
  - apply map_map.
  - apply Forall_forall. intros c Hc. apply in_map_iff in Hc. destruct Hc as [x [<- Hx]]. auto.
Qed.

Lemma flat_map_length_const : forall {A B} (g : A -> list B) n l,
  (forall x, In x l -> length (g x) = n) -> length (flat_map g l) = (length l * n)%nat.
Proof.
  induction l as [|a l IH]; intro H; cbn [flat_map length]; auto.
  rewrite app_length, IH, H; [reflexivity|left; auto|intros; apply H; right; auto].
Qed.

Definition vmap_mod (M : Z) (v : vec) : vec := map (map (fun x => x mod M)) v.

Lemma wf_in_length : forall K v p, wf_vec K v -> In p v -> length p = DEG.
Proof. intros K v p [_ H] Hi. rewrite Forall_forall in H. apply H in Hi. apply Hi. Qed.

Lemma mod_p_roundtrip : forall I v, wf_vec (sK I) v ->
  from_bytes_mod_p I (read_mod_p v) = vmap_mod 1024 v.
Proof.
  intros I v H. unfold from_bytes_mod_p, read_mod_p.
  change (10 * 256 / 8)%nat with 320%nat.
  rewrite map_chunks_flat_map; [|lia|].
  - rewrite fill_vec_id by (rewrite map_length; apply H).
    unfold vmap_mod. apply map_ext_in. intros p Hp. apply from10_read10.
    eapply wf_in_length; eauto.
  - intros p Hp. apply read10_length. eapply wf_in_length; eauto.
Qed.
Lemma mod_q_roundtrip : forall I v, wf_vec (sK I) v ->
  from_bytes_mod_q I (read_mod_q v) = vmap_mod 8192 v.
Proof.
  intros I v H. unfold from_bytes_mod_q, read_mod_q.
  change (13 * 256 / 8)%nat with 416%nat.
  rewrite map_chunks_flat_map; [|lia|].
  - rewrite fill_vec_id by (rewrite map_length; apply H).
    unfold vmap_mod. apply map_ext_in. intros p Hp. apply from13_read13.
    eapply wf_in_length; eauto.
  - intros p Hp. apply read13_length. eapply wf_in_length; eauto.
Qed.

Lemma read_mod_p_length : forall K v, wf_vec K v -> length (read_mod_p v) = (K * 320)%nat.
Proof.
  intros K v H. unfold read_mod_p. rewrite flat_map_length_const with (n := 320%nat).
  - rewrite (proj1 H). reflexivity.
  - intros p Hp. apply read10_length. eapply wf_in_length; eauto.
Qed.
Lemma read_mod_q_length : forall K v, wf_vec K v -> length (read_mod_q v) = (K * 416)%nat.
Proof.
  intros K v H. unfold read_mod_q. rewrite flat_map_length_const with (n := 416%nat).
  - rewrite (proj1 H). reflexivity.
  - intros p Hp. apply read13_length. eapply wf_in_length; eauto.
Qed.
Lemma read_mod_p_bytes : forall v, is_bytes (read_mod_p v).
Proof. intro v. apply flat_map_bytes. intro. apply read10_bytes. Qed.
Lemma read_mod_q_bytes : forall v, is_bytes (read_mod_q v).
Proof. intro v. apply flat_map_bytes. intro. apply read13_bytes. Qed.

Lemma vec_from_wf : forall (f : bytes -> poly) n K b,
  (0 < n)%nat -> length b = (K * n)%nat -> is_bytes b -> (forall c, is_bytes c -> wf_poly (f c)) ->
  wf_vec K (fill_vec K (map f (chunks_exact n b))) /\
  fill_vec K (map f (chunks_exact n b)) = map f (chunks_exact n b).
Proof.
  intros f n K b Hn Hl Hb Hf.
  destruct (chunks_concat n K b Hn Hl) as [_ [HL _]].
  assert (E : fill_vec K (map f (chunks_exact n b)) = map f (chunks_exact n b))
    by (apply fill_vec_id; rewrite map_length; exact HL).
  rewrite E. split; [|reflexivity]. split; [rewrite map_length; exact HL|].
  apply Forall_map. eapply Forall_impl; [|apply (Forall_chunks is_byte n K b Hn Hl Hb)].
  intros c Hc. apply Hf. exact Hc.
Qed.

Lemma from_mod_p_wf : forall I b, length b = (sK I * 320)%nat -> is_bytes b ->
  wf_vec (sK I) (from_bytes_mod_p I b).
Proof.
  intros I b Hl Hb. apply (vec_from_wf from_bytes_10bit 320 (sK I) b); auto; try lia.
  apply from10_wf.
Qed.
Lemma from_mod_q_wf : forall I b, length b = (sK I * 416)%nat -> is_bytes b ->
  wf_vec (sK I) (from_bytes_mod_q I b).
Proof.
  intros I b Hl Hb. apply (vec_from_wf from_bytes_13bit 416 (sK I) b); auto; try lia.
  apply from13_wf.
Qed.

Lemma vec_read_from : forall (rd : poly -> bytes) (f : bytes -> poly) n K b,
  (0 < n)%nat -> length b = (K * n)%nat -> is_bytes b ->
  (forall c, length c = n -> is_bytes c -> rd (f c) = c) ->
  flat_map rd (map f (chunks_exact n b)) = b.
Proof.
  intros rd f n K b Hn Hl Hb H.
  destruct (chunks_concat n K b Hn Hl) as [HC [_ HF]].
  pose proof (Forall_chunks is_byte n K b Hn Hl Hb) as HB.
  rewrite flat_map_concat_map, map_map. transitivity (concat (map (fun c => c) (chunks_exact n b))).
  - f_equal. apply map_ext_in. intros c Hc. rewrite Forall_forall in HF, HB.
    apply H; [apply HF; exact Hc|apply (HB c Hc)].
  - rewrite map_id. exact HC.
Qed.

Lemma mod_p_back : forall I b, length b = (sK I * 320)%nat -> is_bytes b ->
  read_mod_p (from_bytes_mod_p I b) = b.
Proof.
  intros I b Hl Hb. unfold read_mod_p, from_bytes_mod_p. change (10 * 256 / 8)%nat with 320%nat.
  destruct (vec_from_wf from_bytes_10bit 320 (sK I) b) as [_ ->]; auto; try lia.
  { apply from10_wf. }
  apply (vec_read_from _ _ 320 (sK I)); auto; try lia. apply read10_from10.
Qed.
Lemma mod_q_back : forall I b, length b = (sK I * 416)%nat -> is_bytes b ->
  read_mod_q (from_bytes_mod_q I b) = b.
Proof.
  intros I b Hl Hb. unfold read_mod_q, from_bytes_mod_q. change (13 * 256 / 8)%nat with 416%nat.
  destruct (vec_from_wf from_bytes_13bit 416 (sK I) b) as [_ ->]; auto; try lia.
  { apply from13_wf. }
  apply (vec_read_from _ _ 416 (sK I)); auto; try lia. apply read13_from13.
Qed.

Lemma vmap_mod_wf : forall K M v, 0 < M <= 65536 -> wf_vec K v -> wf_vec K (vmap_mod M v).
Proof.
  intros K M v HM [Hl H]. split; [unfold vmap_mod; rewrite map_length; exact Hl|].
  apply Forall_map. eapply Forall_impl; [|exact H]. intros p [Lp Rp]. split.
  - rewrite map_length. exact Lp.
  - apply Forall_map. eapply Forall_impl; [|exact Rp]. intros x Hx.
    pose proof (Z.mod_pos_bound x M). unfold is_u16. lia.
Qed.

Lemma read10_mod : forall p, length p = DEG ->
  read_bytes_10bit (map (fun x => x mod 1024) p) = read_bytes_10bit p.
Proof.
  intros p H. rewrite <- from10_read10 by exact H. apply read10_from10.
  - apply read10_length. exact H.
  - apply read10_bytes.
Qed.
Lemma read13_mod : forall p, length p = DEG ->
  read_bytes_13bit (map (fun x => x mod 8192) p) = read_bytes_13bit p.
Proof.
  intros p H. rewrite <- from13_read13 by exact H. apply read13_from13.
  - apply read13_length. exact H.
  - apply read13_bytes.
Qed.
Lemma flat_map_map' : forall {A B C} (f : B -> list C) (g : A -> B) l,
  flat_map f (map g l) = flat_map (fun x => f (g x)) l.
Proof. intros. rewrite !flat_map_concat_map, map_map. reflexivity. Qed.
Lemma flat_map_ext_in' : forall {A B} (f g : A -> list B) l,
  (forall x, In x l -> f x = g x) -> flat_map f l = flat_map g l.
Proof. intros. rewrite !flat_map_concat_map. f_equal. apply map_ext_in. assumption. Qed.

Lemma read_mod_p_mod : forall K v, wf_vec K v -> read_mod_p (vmap_mod 1024 v) = read_mod_p v.
Proof.
  intros K v H. unfold read_mod_p, vmap_mod. rewrite flat_map_map'.
  apply flat_map_ext_in'. intros p Hp. apply read10_mod. eapply wf_in_length; eauto.
Qed.
Lemma read_mod_q_mod : forall K v, wf_vec K v -> read_mod_q (vmap_mod 8192 v) = read_mod_q v.
Proof.
  intros K v H. unfold read_mod_q, vmap_mod. rewrite flat_map_map'.
  apply flat_map_ext_in'. intros p Hp. apply read13_mod. eapply wf_in_length; eauto.
Qed.

(** ** Sizes *)
Lemma polyvec_size : forall I, param_set I -> POLYVECCOMPRESSEDBYTES I = (sK I * 320)%nat.
Proof. intros I []; reflexivity. Qed.
Lemma sk_size : forall I, param_set I -> INDCPA_SECRETKEYBYTES I = (sK I * 416)%nat.
Proof. intros I []; reflexivity. Qed.
Lemma pk_size : forall I, param_set I -> PUBLIC_KEY_BYTES I = (sK I * 320 + 32)%nat.
Proof. intros I []; reflexivity. Qed.

(** ** Public and secret key codecs *)
Lemma pk_to_bytes_length : forall I pk, param_set I -> wf_pk I pk ->
  length (pk_to_bytes pk) = PUBLIC_KEY_BYTES I.
Proof.
  intros I pk HI [Hv [Hs _]]. unfold pk_to_bytes.
  rewrite app_length, (read_mod_p_length (sK I)), Hs, pk_size by assumption. reflexivity.
Qed.
Lemma pk_to_bytes_bytes : forall I pk, wf_pk I pk -> is_bytes (pk_to_bytes pk).
Proof.
  intros I pk [_ [_ H]]. apply is_bytes_app. split; [apply read_mod_p_bytes|exact H].
Qed.

Lemma pk_from_to : forall I pk, param_set I -> wf_pk I pk ->
  pk_from_bytes I (pk_to_bytes pk) =
  Ret (Ok {| pk_vec := vmap_mod 1024 (pk_vec pk); pk_seed := pk_seed pk |}).
Proof.
  intros I pk HI Hw. pose proof (pk_to_bytes_length I pk HI Hw) as HL.
  destruct Hw as [Hv [Hs Hb]].
  unfold pk_from_bytes. rewrite HL, Nat.eqb_refl.
  unfold indcpa_pk_from_bytes, pk_to_bytes. rewrite split_at_app
    by (rewrite (read_mod_p_length (sK I)), polyvec_size; auto).
  cbn [obind]. rewrite Hs. cbn [assert_ Nat.eqb SEEDBYTES]. 
  rewrite mod_p_roundtrip by exact Hv. reflexivity.
Qed.

Lemma pk_from_bytes_wf : forall I b, param_set I -> length b = PUBLIC_KEY_BYTES I -> is_bytes b ->
  exists pk, pk_from_bytes I b = Ret (Ok pk) /\ wf_pk I pk /\ pk_to_bytes pk = b.
Proof.
  intros I b HI HL Hb. pose proof (pk_size I HI) as HS.
  unfold pk_from_bytes. rewrite HL, Nat.eqb_refl. unfold indcpa_pk_from_bytes.
  set (n := POLYVECCOMPRESSEDBYTES I).
  assert (Hn : n = (sK I * 320)%nat) by (apply polyvec_size; exact HI).
  rewrite <- (firstn_skipn n b). rewrite split_at_app by (rewrite firstn_length; lia).
  cbn [obind]. assert (Hk : length (skipn n b) = SEEDBYTES)
    by (rewrite skipn_length; unfold SEEDBYTES; lia).
  rewrite Hk. cbn [assert_ Nat.eqb SEEDBYTES].
  assert (Hf : length (firstn n b) = (sK I * 320)%nat) by (rewrite firstn_length; lia).
  eexists. split; [reflexivity|]. cbn [pk_vec pk_seed]. split.
  - split; [|split]; cbn [pk_vec pk_seed].
    + apply from_mod_p_wf; [exact Hf|apply is_bytes_firstn; exact Hb].
    + exact Hk.
    + apply is_bytes_skipn. exact Hb.
  - unfold pk_to_bytes. cbn [pk_vec pk_seed].
    rewrite mod_p_back; [reflexivity|exact Hf|apply is_bytes_firstn; exact Hb].
Qed.

Lemma sk_to_bytes_length : forall I sk, param_set I -> wf_sk I sk ->
  length (sk_to_bytes sk) = SECRET_KEY_BYTES I.
Proof.
  intros I sk HI [Hz [_ [Hh [_ [Hp Hs]]]]]. unfold sk_to_bytes, SECRET_KEY_BYTES.
  rewrite !app_length, (pk_to_bytes_length I), Hz, Hh by assumption.
  unfold indcpa_sk_to_bytes. rewrite (read_mod_q_length (sK I)), sk_size by assumption.
  unfold PUBLIC_KEY_BYTES. lia.
Qed.

Lemma sk_from_to : forall I sk, param_set I -> wf_sk I sk ->
  sk_from_bytes I (sk_to_bytes sk) =
  Ret (Ok {| sk_z := sk_z sk; sk_hash_pk := sk_hash_pk sk;
             sk_pk_cca := {| pk_vec := vmap_mod 1024 (pk_vec (sk_pk_cca sk));
                             pk_seed := pk_seed (sk_pk_cca sk) |};
             sk_sk_cpa := {| sk_vec := vmap_mod 8192 (sk_vec (sk_sk_cpa sk)) |} |}).
Proof.
  intros I sk HI Hw. pose proof (sk_to_bytes_length I sk HI Hw) as HL.
  destruct Hw as [Hz [_ [Hh [_ [Hp Hs]]]]].
  unfold sk_from_bytes. rewrite HL, Nat.eqb_refl. unfold sk_to_bytes.
  assert (HQ : length (indcpa_sk_to_bytes (sk_sk_cpa sk)) = INDCPA_SECRETKEYBYTES I)
    by (unfold indcpa_sk_to_bytes; rewrite (read_mod_q_length (sK I)), sk_size; auto).
  rewrite split_at_app by exact HQ. cbn [obind].
  rewrite split_at_app by (apply pk_to_bytes_length; auto). cbn [obind].
  rewrite split_at_app by exact Hh. cbn [obind].
  unfold indcpa_sk_from_bytes. rewrite HQ, Nat.eqb_refl.
  rewrite pk_from_to by auto. cbn [obind].
  rewrite Hh, Hz. cbn [assert_ Nat.eqb HASHBYTES KEYBYTES].
  unfold indcpa_sk_to_bytes. rewrite mod_q_roundtrip by exact Hs. reflexivity.
Qed.

Lemma sk_from_bytes_wf : forall I b, param_set I -> length b = SECRET_KEY_BYTES I -> is_bytes b ->
  exists sk, sk_from_bytes I b = Ret (Ok sk) /\ wf_sk I sk /\ sk_to_bytes sk = b.
Proof.
  intros I b HI HL Hb.
  assert (HS : SECRET_KEY_BYTES I = (INDCPA_SECRETKEYBYTES I + PUBLIC_KEY_BYTES I + 32 + 32)%nat)
    by reflexivity.
  unfold sk_from_bytes. rewrite HL, Nat.eqb_refl.
  set (n1 := INDCPA_SECRETKEYBYTES I) in *. set (n2 := PUBLIC_KEY_BYTES I) in *.
  set (b1 := firstn n1 b). set (r1 := skipn n1 b).
  assert (E1 : b = b1 ++ r1) by (symmetry; apply firstn_skipn).
  assert (L1 : length b1 = n1) by (unfold b1; rewrite firstn_length; lia).
  assert (Lr1 : length r1 = (n2 + 64)%nat) by (unfold r1; rewrite skipn_length; lia).
  set (b2 := firstn n2 r1). set (r2 := skipn n2 r1).
  assert (E2 : r1 = b2 ++ r2) by (symmetry; apply firstn_skipn).
  assert (L2 : length b2 = n2) by (unfold b2; rewrite firstn_length; lia).
  assert (Lr2 : length r2 = 64%nat) by (unfold r2; rewrite skipn_length; lia).
  set (b3 := firstn 32 r2). set (b4 := skipn 32 r2).
  assert (E3 : r2 = b3 ++ b4) by (symmetry; apply firstn_skipn).
  assert (L3 : length b3 = 32%nat) by (unfold b3; rewrite firstn_length; lia).
  assert (L4 : length b4 = 32%nat) by (unfold b4; rewrite skipn_length; lia).
  assert (Hbs : is_bytes b1 /\ is_bytes b2 /\ is_bytes b3 /\ is_bytes b4).
  { rewrite E1, E2, E3, !is_bytes_app in Hb. tauto. }
  destruct Hbs as [B1 [B2 [B3 B4]]].
  clearbody b1 b2 b3 b4 r1 r2. subst r2 r1 b.
  rewrite split_at_app by exact L1. cbn [obind]. rewrite split_at_app by exact L2. cbn [obind].
  change HASHBYTES with 32%nat. change KEYBYTES with 32%nat.
  rewrite split_at_app by exact L3. cbn [obind].
  unfold indcpa_sk_from_bytes. fold n1. rewrite L1, Nat.eqb_refl.
  destruct (pk_from_bytes_wf I b2 HI L2 B2) as [pk [Hpk [Wpk Tpk]]].
  rewrite Hpk. cbn [obind]. rewrite L3, L4, Nat.eqb_refl. cbn [assert_].
  assert (Q1 : length b1 = (sK I * 416)%nat) by (rewrite L1; apply sk_size; exact HI).
  eexists. split; [reflexivity|]. split.
  - repeat split; cbn [sk_z sk_hash_pk sk_pk_cca sk_sk_cpa sk_vec]; auto; try apply Wpk;
      apply (from_mod_q_wf I b1 Q1 B1).
  - unfold sk_to_bytes, indcpa_sk_to_bytes. cbn [sk_z sk_hash_pk sk_pk_cca sk_sk_cpa sk_vec].
    rewrite Tpk, mod_q_back by assumption. reflexivity.
Qed.
