(** * DilCodec2: polynomials, keys and signatures as byte strings. *)
From Coq Require Import ZArith List Lia Bool.
From Verif Require Import Base Bits SaberPoly SaberCodec SaberRing DilArith DilNtt DilPoly DilPack DilCodec.
Import ListNotations.
Open Scope Z_scope.

(** ** Chunkwise codecs *)
Lemma codec_un_pack : forall (P : Z -> Prop) n m k (f g : list Z -> list Z) a,
  (0 < n)%nat -> (0 < m)%nat -> length a = (k * n)%nat -> Forall P a ->
  (forall c, length c = n -> length (f c) = m) ->
  (forall c, length c = n -> Forall P c -> g (f c) = c) ->
  flat_map g (chunks_exact m (flat_map f (chunks_exact n a))) = a.
Proof.
  intros P n m k f g a Hn Hm La Pa Lf GF.
  rewrite (chunks_recode n m k) by auto.
  destruct (chunks_concat n k a Hn La) as [E [_ L]].
  pose proof (Forall_chunks P n k a Hn La Pa) as PC.
  rewrite <- E at 2. rewrite flat_map_concat_map. f_equal.
  rewrite <- (map_id (chunks_exact n a)) at 2. apply map_ext_in. intros c Hc.
  rewrite Forall_forall in L, PC. apply GF; auto.
Qed.
Lemma map_dec_enc : forall (enc dec : Z -> Z) (P : Z -> Prop) c,
  (forall x, P x -> dec (enc x) = x) -> Forall P c -> map dec (map enc c) = c.
Proof. intros enc dec P c H F. rewrite map_map. induction F; cbn; f_equal; auto. Qed.
Lemma Forall_map_impl : forall (f : Z -> Z) (P R : Z -> Prop) c,
  (forall x, P x -> R (f x)) -> Forall P c -> Forall R (map f c).
Proof. intros f P R c H F. apply Forall_map. eapply Forall_impl; [|exact F]. exact H. Qed.

(** The range of a coefficient that each format can carry. *)
Definition eta_range (x : Z) : Prop := -5 <= x <= 2.
Definition t1_range (x : Z) : Prop := 0 <= x < 1024.
Definition t0_range (x : Z) : Prop := -4096 < x <= 4096.
Definition z_range (x : Z) : Prop := - GAMMA1 < x <= GAMMA1.
Definition w1_range (x : Z) : Prop := 0 <= x < 64.

Lemma u32_id : forall x, 0 <= x < 4294967296 -> u32 x = x.
Proof. intros. unfold u32. apply Z.mod_small. assumption. Qed.

Ltac chunk_un U enc :=
  let c := fresh "c" in let L := fresh "L" in let F := fresh "F" in
  intros c L F; rewrite U;
  [ eapply map_dec_enc; [|exact F] | rewrite map_length; exact L
  | eapply Forall_map_impl; [|exact F] ].

Theorem polyeta_un_pack : forall a, length a = 256%nat -> Forall eta_range a ->
  polyeta_unpack (polyeta_pack a) = a.
Proof.
  intros a L F. unfold polyeta_unpack, polyeta_pack.
  apply (codec_un_pack eta_range 8 3 32); try lia; auto.
  chunk_un eta_un_pack 0; intros x Hx; unfold eta_range, ETA, below in *; cbv beta;
    rewrite u8_id by (unfold is_byte; lia); lia.
Qed.
Theorem polyt1_un_pack : forall a, length a = 256%nat -> Forall t1_range a ->
  polyt1_unpack (polyt1_pack a) = a.
Proof.
  intros a L F. unfold polyt1_unpack, polyt1_pack.
  apply (codec_un_pack t1_range 4 5 64); try lia; auto.
  intros c Lc Fc. apply t1_un_pack; auto.
Qed.
Theorem polyt0_un_pack : forall a, length a = 256%nat -> Forall t0_range a ->
  polyt0_unpack (polyt0_pack a) = a.
Proof.
  intros a L F. unfold polyt0_unpack, polyt0_pack.
  apply (codec_un_pack t0_range 8 13 32); try lia; auto.
  chunk_un t0_un_pack 0; intros x Hx; unfold t0_range, below in *; cbv beta;
    rewrite u32_id by lia; lia.
Qed.
Theorem polyz_un_pack : forall a, length a = 256%nat -> Forall z_range a ->
  polyz_unpack (polyz_pack a) = a.
Proof.
  intros a L F. unfold polyz_unpack, polyz_pack.
  apply (codec_un_pack z_range 4 9 64); try lia; auto.
  chunk_un z_un_pack 0; intros x Hx; unfold z_range, GAMMA1, below in *; cbv beta;
    rewrite u32_id by lia; lia.
Qed.
Theorem polyw1_pack_inj : forall a b, length a = 256%nat -> length b = 256%nat ->
  Forall w1_range a -> Forall w1_range b -> polyw1_pack a = polyw1_pack b -> a = b.
Proof.
  assert (G : forall a, length a = 256%nat -> Forall w1_range a ->
    flat_map w1_read4 (chunks_exact 3 (polyw1_pack a)) = a).
  { intros a L F. apply (codec_un_pack w1_range 4 3 64); try lia; auto.
    intros c Lc Fc. apply w1_read_pack; auto. }
  intros a b La Lb Fa Fb E. rewrite <- (G a), <- (G b) by auto. rewrite E. reflexivity.
Qed.

(** Values produced by the unpackers. *)
Lemma below_land : forall x k, 0 <= k -> below k (Z.land x (2 ^ k - 1)).
Proof. intros. unfold below. rewrite land_mask_mod by auto. apply Z.mod_pos_bound. lia. Qed.
Lemma eta_unpack8_below : forall b, Forall (below 3) (eta_unpack8 b).
Proof. intro b. unfold eta_unpack8. repeat constructor; apply (below_land _ 3); lia. Qed.
Lemma t1_unpack4_below : forall b, Forall (below 10) (t1_unpack4 b).
Proof. intro b. unfold t1_unpack4. repeat constructor; apply (below_land _ 10); lia. Qed.
Lemma t0_unpack8_below : forall b, Forall (below 13) (t0_unpack8 b).
Proof. intro b. unfold t0_unpack8. repeat constructor; apply (below_land _ 13); lia. Qed.
Lemma z_unpack4_below : forall b, Forall (below 18) (z_unpack4 b).
Proof. intro b. unfold z_unpack4. repeat constructor; apply (below_land _ 18); lia. Qed.

Lemma flat_all : forall (P : Z -> Prop) (f : list Z -> list Z) l,
  (forall c, Forall P (f c)) -> Forall P (flat_map f l).
Proof. intros P f l H. induction l; cbn; [constructor|apply Forall_app; auto]. Qed.

Theorem polyeta_unpack_range : forall b, Forall eta_range (polyeta_unpack b).
Proof.
  intro b. apply flat_all. intro c. eapply Forall_map_impl; [|apply eta_unpack8_below].
  unfold below, eta_range, ETA. intros. lia.
Qed.
Theorem polyt1_unpack_range : forall b, Forall t1_range (polyt1_unpack b).
Proof.
  intro b. apply flat_all. intro c. eapply Forall_impl; [|apply t1_unpack4_below].
  unfold below, t1_range. intros. lia.
Qed.
Theorem polyt0_unpack_range : forall b, Forall t0_range (polyt0_unpack b).
Proof.
  intro b. apply flat_all. intro c. eapply Forall_map_impl; [|apply t0_unpack8_below].
  unfold below, t0_range. intros. lia.
Qed.
Theorem polyz_unpack_range : forall b, Forall z_range (polyz_unpack b).
Proof.
  intro b. apply flat_all. intro c. eapply Forall_map_impl; [|apply z_unpack4_below].
  unfold below, z_range, GAMMA1. intros. lia.
Qed.

Lemma polyeta_unpack_length : forall b, length b = 96%nat -> length (polyeta_unpack b) = 256%nat.
Proof. intros. apply (flat_map_chunks_length 3 8 32); auto; lia. Qed.
Lemma polyt1_unpack_length : forall b, length b = 320%nat -> length (polyt1_unpack b) = 256%nat.
Proof. intros. apply (flat_map_chunks_length 5 4 64); auto; lia. Qed.
Lemma polyt0_unpack_length : forall b, length b = 416%nat -> length (polyt0_unpack b) = 256%nat.
Proof. intros. apply (flat_map_chunks_length 13 8 32); auto; lia. Qed.
Lemma polyz_unpack_length : forall b, length b = 576%nat -> length (polyz_unpack b) = 256%nat.
Proof. intros. apply (flat_map_chunks_length 9 4 64); auto; lia. Qed.
Lemma polyeta_pack_length : forall a, length a = 256%nat -> length (polyeta_pack a) = 96%nat.
Proof. intros. apply (flat_map_chunks_length 8 3 32); auto; lia. Qed.
Lemma polyt1_pack_length : forall a, length a = 256%nat -> length (polyt1_pack a) = 320%nat.
Proof. intros. apply (flat_map_chunks_length 4 5 64); auto; lia. Qed.
Lemma polyt0_pack_length : forall a, length a = 256%nat -> length (polyt0_pack a) = 416%nat.
Proof. intros. apply (flat_map_chunks_length 8 13 32); auto; lia. Qed.
Lemma polyz_pack_length : forall a, length a = 256%nat -> length (polyz_pack a) = 576%nat.
Proof. intros. apply (flat_map_chunks_length 4 9 64); auto; lia. Qed.
Lemma polyw1_pack_length : forall a, length a = 256%nat -> length (polyw1_pack a) = 192%nat.
Proof. intros. apply (flat_map_chunks_length 4 3 64); auto; lia. Qed.

(** Re-packing what was unpacked gives the bytes back: each format is a bijection. *)
Lemma map_map_back : forall (f g : Z -> Z) l, Forall (fun x => f (g x) = x) l -> map f (map g l) = l.
Proof. intros f g l F. rewrite map_map. induction F; cbn; f_equal; auto. Qed.

Theorem polyeta_pack_un : forall b, length b = 96%nat -> is_bytes b -> polyeta_pack (polyeta_unpack b) = b.
Proof.
  intros b L F. unfold polyeta_unpack, polyeta_pack.
  apply (codec_un_pack is_byte 3 8 32); try lia; auto.
  intros c Lc Fc. rewrite map_map_back; [apply eta_pack_un; auto|].
  eapply Forall_impl; [|apply eta_unpack8_below]. unfold below, ETA. cbv beta. intros.
  rewrite u8_id; unfold is_byte; lia.
Qed.
Theorem polyt1_pack_un : forall b, length b = 320%nat -> is_bytes b -> polyt1_pack (polyt1_unpack b) = b.
Proof.
  intros b L F. unfold polyt1_unpack, polyt1_pack.
  apply (codec_un_pack is_byte 5 4 64); try lia; auto.
  intros c Lc Fc. apply t1_pack_un; auto.
Qed.
Theorem polyt0_pack_un : forall b, length b = 416%nat -> is_bytes b -> polyt0_pack (polyt0_unpack b) = b.
Proof.
  intros b L F. unfold polyt0_unpack, polyt0_pack.
  apply (codec_un_pack is_byte 13 8 32); try lia; auto.
  intros c Lc Fc. rewrite map_map_back; [apply t0_pack_un; auto|].
  eapply Forall_impl; [|apply t0_unpack8_below]. unfold below. cbv beta. intros.
  rewrite u32_id; lia.
Qed.
Theorem polyz_pack_un : forall b, length b = 576%nat -> is_bytes b -> polyz_pack (polyz_unpack b) = b.
Proof.
  intros b L F. unfold polyz_unpack, polyz_pack.
  apply (codec_un_pack is_byte 9 4 64); try lia; auto.
  intros c Lc Fc. rewrite map_map_back; [apply z_pack_un; auto|].
  eapply Forall_impl; [|apply z_unpack4_below]. unfold below, GAMMA1. cbv beta. intros.
  rewrite u32_id; lia.
Qed.

(** The packed forms are byte strings. *)
Lemma u8_byte : forall x, is_byte (u8 x). Proof. exact u8_range. Qed.
Lemma byte_lor : forall x y, is_byte x -> is_byte y -> is_byte (Z.lor x y).
Proof. intros x y Hx Hy. unfold is_byte in *. change 256 with (2 ^ 8). apply lor_bound; lia. Qed.
Ltac bytes_tac := repeat constructor; repeat first [ apply u8_byte | apply byte_lor ].
Lemma polyeta_pack_bytes : forall a, is_bytes (polyeta_pack a).
Proof. intro a. apply flat_all. intro c. unfold eta_pack8. bytes_tac. Qed.
Lemma polyt1_pack_bytes : forall a, is_bytes (polyt1_pack a).
Proof. intro a. apply flat_all. intro c. unfold t1_pack4. bytes_tac. Qed.
Lemma polyt0_pack_bytes : forall a, is_bytes (polyt0_pack a).
Proof. intro a. apply flat_all. intro c. unfold t0_pack8. bytes_tac. Qed.
Lemma polyz_pack_bytes : forall a, is_bytes (polyz_pack a).
Proof. intro a. apply flat_all. intro c. unfold z_pack4. bytes_tac. Qed.
Lemma polyw1_pack_bytes : forall a, is_bytes (polyw1_pack a).
Proof. intro a. apply flat_all. intro c. unfold w1_pack4. bytes_tac. Qed.

(** ** Vectors *)
(** A vector of four polynomials whose coefficients satisfy [P]. *)
Definition vec4 (P : Z -> Prop) (v : polyvec) : Prop :=
  length v = 4%nat /\ Forall (fun a => length a = 256%nat /\ Forall P a) v.

Ltac vec4_destr H v :=
  let L := fresh "L" in let F := fresh "F" in
  destruct H as [L F];
  destruct v as [|?a0 [|?a1 [|?a2 [|?a3 [|? ?]]]]]; try discriminate L; clear L;
  repeat match goal with H : Forall _ (_ :: _) |- _ => inversion H; clear H; subst
                       | H : Forall _ [] |- _ => clear H end;
  repeat match goal with H : _ /\ _ |- _ => destruct H end.

Lemma slice_app1 : forall (a b : bytes) off n, (off + n <= length a)%nat -> slice (a ++ b) off n = slice a off n.
Proof.
  intros a b off n H. unfold slice. rewrite skipn_app, firstn_app.
  replace (off - length a)%nat with O by lia. rewrite skipn_length.
  replace (n - (length a - off))%nat with O by lia. cbn [firstn]. apply app_nil_r.
Qed.
Lemma slice_app2 : forall (a b : bytes) off n, (length a <= off)%nat ->
  slice (a ++ b) off n = slice b (off - length a) n.
Proof.
  intros a b off n H. unfold slice. rewrite skipn_app. rewrite (skipn_all2 a) by lia. reflexivity.
Qed.
Lemma slice_all : forall (a : bytes) n, length a = n -> slice a 0 n = a.
Proof. intros a n H. unfold slice. cbn [skipn]. rewrite <- H. apply firstn_all. Qed.
Lemma slice_length : forall (a : bytes) off n, (off + n <= length a)%nat -> length (slice a off n) = n.
Proof. intros. unfold slice. rewrite firstn_length, skipn_length. lia. Qed.
Lemma slice_bytes : forall a off n, is_bytes a -> is_bytes (slice a off n).
Proof. intros. unfold slice. apply is_bytes_firstn, is_bytes_skipn. assumption. Qed.

(** Unpacking vector component by component. *)
Lemma vec_unpack : forall (P : Z -> Prop) (pk un : list Z -> list Z) (n : nat) (pre post : bytes) off v,
  vec4 P v -> length pre = off ->
  (forall a, length a = 256%nat -> length (pk a) = n) ->
  (forall a, length a = 256%nat -> Forall P a -> un (pk a) = a) ->
  map (fun i => un (slice (pre ++ flat_map pk v ++ post) (off + i * n) n)) (seq 0 4) = v.
Proof.
  intros P pk un n pre post off v V <- Lp U. vec4_destr V v.
  cbn [flat_map seq map]. rewrite app_nil_r, <- !app_assoc.
  repeat (apply f_equal2; [|]); [ | | | |reflexivity].
  all: rewrite slice_app2 by lia.
  - replace (length pre + 0 * n - length pre)%nat with O by lia.
    rewrite slice_app1 by (rewrite Lp by auto; lia). rewrite slice_all by auto. auto.
  - replace (length pre + 1 * n - length pre)%nat with n by lia.
    rewrite slice_app2 by (rewrite Lp by auto; lia). rewrite (Lp a0) by auto. rewrite Nat.sub_diag.
    rewrite slice_app1 by (rewrite Lp by auto; lia). rewrite slice_all by auto. auto.
  - replace (length pre + 2 * n - length pre)%nat with (n + n)%nat by lia.
    rewrite slice_app2 by (rewrite Lp by auto; lia). rewrite (Lp a0) by auto.
    replace (n + n - n)%nat with n by lia.
    rewrite slice_app2 by (rewrite Lp by auto; lia). rewrite (Lp a1) by auto. rewrite Nat.sub_diag.
    rewrite slice_app1 by (rewrite Lp by auto; lia). rewrite slice_all by auto. auto.
  - replace (length pre + 3 * n - length pre)%nat with (n + n + n)%nat by lia.
    rewrite slice_app2 by (rewrite Lp by auto; lia). rewrite (Lp a0) by auto.
    replace (n + n + n - n)%nat with (n + n)%nat by lia.
    rewrite slice_app2 by (rewrite Lp by auto; lia). rewrite (Lp a1) by auto.
    replace (n + n - n)%nat with n by lia.
    rewrite slice_app2 by (rewrite Lp by auto; lia). rewrite (Lp a2) by auto. rewrite Nat.sub_diag.
    rewrite slice_app1 by (rewrite Lp by auto; lia). rewrite slice_all by auto. auto.
Qed.
Lemma vec_pack_length : forall (P : Z -> Prop) (pk : list Z -> list Z) n v,
  vec4 P v -> (forall a, length a = 256%nat -> length (pk a) = n) -> length (flat_map pk v) = (4 * n)%nat.
Proof.
  intros P pk n v V Lp. vec4_destr V v. cbn [flat_map]. rewrite !app_length, !Lp by auto. cbn. lia.
Qed.
Lemma skipn_skipn_add : forall {A} y x (l : list A), skipn x (skipn y l) = skipn (y + x) l.
Proof.
  intros A y. induction y as [|y IH]; intros x l; [reflexivity|].
  destruct l; [cbn; destruct x; reflexivity|]. cbn [skipn Nat.add]. apply IH.
Qed.
(** Four consecutive slices put together again. *)
Lemma slices4 : forall (b : bytes) off n,
  slice b (off + 0 * n) n ++ slice b (off + 1 * n) n ++ slice b (off + 2 * n) n ++ slice b (off + 3 * n) n
  = slice b off (4 * n).
Proof.
  assert (G : forall (b : bytes) off n m, slice b off n ++ slice b (off + n) m = slice b off (n + m)).
  { intros b off n m. unfold slice. rewrite <- (firstn_skipn n (firstn (n + m) (skipn off b))).
    rewrite firstn_firstn, Nat.min_l by lia. f_equal.
    rewrite skipn_firstn_comm, skipn_skipn_add. f_equal. lia. }
  intros b off n.
  replace (off + 0 * n)%nat with off by lia. replace (off + 1 * n)%nat with (off + n)%nat by lia.
  replace (off + 2 * n)%nat with (off + n + n)%nat by lia. replace (off + 3 * n)%nat with (off + n + n + n)%nat by lia.
  rewrite !G. f_equal. lia.
Qed.
Lemma vec_pack : forall (pk un : list Z -> list Z) n (b : bytes) off,
  (off + 4 * n <= length b)%nat -> is_bytes b ->
  (forall c, length c = n -> is_bytes c -> pk (un c) = c) ->
  flat_map pk (map (fun i => un (slice b (off + i * n) n)) (seq 0 4)) = slice b off (4 * n).
Proof.
  intros pk un n b off L B U. cbn [seq map flat_map]. rewrite app_nil_r.
  rewrite !U by (auto using slice_bytes; apply slice_length; lia). apply slices4.
Qed.
Lemma vec_unpack_vec4 : forall (P : Z -> Prop) (un : list Z -> list Z) n (b : bytes) off,
  (off + 4 * n <= length b)%nat -> (forall c, Forall P (un c)) ->
  (forall c, length c = n -> length (un c) = 256%nat) ->
  vec4 P (map (fun i => un (slice b (off + i * n) n)) (seq 0 4)).
Proof.
  intros P un n b off L F U. split; [reflexivity|]. cbn [seq map].
  repeat constructor; auto; apply U, slice_length; lia.
Qed.

(** ** Keys *)
Theorem unpack_pack_pk : forall rho t1, length rho = 32%nat -> vec4 t1_range t1 ->
  unpack_pk (pack_pk rho t1) = (rho, t1).
Proof.
  intros rho t1 L V. unfold unpack_pk, pack_pk. rewrite (firstn_all2 rho) by lia.
  apply f_equal2.
  - rewrite slice_app1 by lia. apply slice_all. exact L.
  - rewrite <- (app_nil_r (flat_map polyt1_pack t1)).
    apply (vec_unpack t1_range); auto using polyt1_pack_length, polyt1_un_pack.
Qed.
Theorem pack_unpack_pk : forall pk, length pk = 1312%nat -> is_bytes pk ->
  pack_pk (fst (unpack_pk pk)) (snd (unpack_pk pk)) = pk.
Proof.
  intros pk L B. unfold pack_pk, unpack_pk. cbn [fst snd].
  rewrite (vec_pack polyt1_pack polyt1_unpack 320 pk 32) by (auto using polyt1_pack_un; lia).
  unfold slice. cbn [skipn]. rewrite firstn_firstn.
  change (4 * 320)%nat with 1280%nat. change (Nat.min 32 32) with 32%nat.
  rewrite (firstn_all2 (skipn 32 pk)) by (rewrite skipn_length; lia). apply firstn_skipn.
Qed.
Theorem pack_pk_length : forall rho t1, length rho = 32%nat -> vec4 t1_range t1 ->
  length (pack_pk rho t1) = 1312%nat.
Proof.
  intros rho t1 L V. unfold pack_pk. rewrite app_length, firstn_length, L.
  rewrite (vec_pack_length _ _ 320 _ V polyt1_pack_length). reflexivity.
Qed.

Theorem unpack_pack_sk : forall rho tr key t0 s1 s2,
  length rho = 32%nat -> length tr = 64%nat -> length key = 32%nat ->
  vec4 t0_range t0 -> vec4 eta_range s1 -> vec4 eta_range s2 ->
  unpack_sk (pack_sk rho tr key t0 s1 s2) = (rho, tr, key, t0, s1, s2).
Proof.
  intros rho tr key t0 s1 s2 Lr Lt Lk V0 V1 V2. unfold unpack_sk, pack_sk.
  rewrite (firstn_all2 rho), (firstn_all2 key), (firstn_all2 tr) by lia.
  assert (L1 : length (flat_map polyeta_pack s1) = 384%nat)
    by (apply (vec_pack_length eta_range polyeta_pack 96); auto using polyeta_pack_length).
  assert (L2 : length (flat_map polyeta_pack s2) = 384%nat)
    by (apply (vec_pack_length eta_range polyeta_pack 96); auto using polyeta_pack_length).
  repeat (apply f_equal2; [|]).
  - rewrite slice_app1 by lia. apply slice_all. auto.
  - rewrite slice_app2, slice_app2, slice_app1 by lia. rewrite Lr, Lk. apply slice_all. auto.
  - rewrite slice_app2, slice_app1 by lia. rewrite Lr. apply slice_all. auto.
  - replace (rho ++ key ++ tr ++ flat_map polyeta_pack s1 ++ flat_map polyeta_pack s2 ++ flat_map polyt0_pack t0)
      with ((rho ++ key ++ tr ++ flat_map polyeta_pack s1 ++ flat_map polyeta_pack s2) ++ flat_map polyt0_pack t0 ++ [])
      by (rewrite app_nil_r, <- !app_assoc; reflexivity).
    apply (vec_unpack t0_range); auto using polyt0_pack_length, polyt0_un_pack.
    rewrite !app_length. lia.
  - replace (rho ++ key ++ tr ++ flat_map polyeta_pack s1 ++ flat_map polyeta_pack s2 ++ flat_map polyt0_pack t0)
      with ((rho ++ key ++ tr) ++ flat_map polyeta_pack s1 ++ flat_map polyeta_pack s2 ++ flat_map polyt0_pack t0)
      by (rewrite <- !app_assoc; reflexivity).
    apply (vec_unpack eta_range); auto using polyeta_pack_length, polyeta_un_pack.
    rewrite !app_length. lia.
  - replace (rho ++ key ++ tr ++ flat_map polyeta_pack s1 ++ flat_map polyeta_pack s2 ++ flat_map polyt0_pack t0)
      with ((rho ++ key ++ tr ++ flat_map polyeta_pack s1) ++ flat_map polyeta_pack s2 ++ flat_map polyt0_pack t0)
      by (rewrite <- !app_assoc; reflexivity).
    apply (vec_unpack eta_range); auto using polyeta_pack_length, polyeta_un_pack.
    rewrite !app_length. lia.
Qed.
Theorem pack_sk_length : forall rho tr key t0 s1 s2,
  length rho = 32%nat -> length tr = 64%nat -> length key = 32%nat ->
  vec4 t0_range t0 -> vec4 eta_range s1 -> vec4 eta_range s2 ->
  length (pack_sk rho tr key t0 s1 s2) = 2560%nat.
Proof.
  intros rho tr key t0 s1 s2 Lr Lt Lk V0 V1 V2. unfold pack_sk.
  rewrite !app_length, !firstn_length, Lr, Lt, Lk.
  rewrite (vec_pack_length _ _ 96 _ V1 polyeta_pack_length).
  rewrite (vec_pack_length _ _ 96 _ V2 polyeta_pack_length).
  rewrite (vec_pack_length _ _ 416 _ V0 polyt0_pack_length). reflexivity.
Qed.
