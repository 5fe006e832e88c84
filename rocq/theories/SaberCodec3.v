(** * SaberCodec3: codecs lifted from chunks to whole polynomials. *)
From Coq Require Import ZArith List Lia Bool.
From Verif Require Import Base Bits SaberPoly SaberCodec SaberCodec2.
Import ListNotations.
Open Scope Z_scope.

Lemma fill_poly_id : forall l, length l = DEG -> fill_poly l = l.
Proof.
  intros l H. unfold fill_poly. rewrite <- H at 1.
  rewrite firstn_app, firstn_all, Nat.sub_diag. cbn [firstn]. apply app_nil_r.
Qed.

Lemma fill_poly_length : forall l, length (fill_poly l) = DEG.
Proof.
  intros l. unfold fill_poly. rewrite firstn_length, app_length, repeat_length. lia.
Qed.

Lemma chunk_map : forall {A B} (f : A -> B) n m l, (0 < n)%nat -> length l = (m * n)%nat ->
  flat_map (fun c => map f c) (chunks_exact n l) = map f l.
Proof.
  intros A B f n m l Hn Hl. destruct (chunks_concat n m l Hn Hl) as [H1 _].
  rewrite <- H1 at 2. rewrite flat_map_concat_map, concat_map. reflexivity.
Qed.

Lemma chunk_id : forall {A} n m (l : list A), (0 < n)%nat -> length l = (m * n)%nat ->
  flat_map (fun c => c) (chunks_exact n l) = l.
Proof.
  intros A n m l Hn Hl. destruct (chunks_concat n m l Hn Hl) as [H1 _].
  rewrite flat_map_concat_map, map_id. exact H1.
Qed.

Section Generic.
  Variables (nb nc k : nat) (pack unpack : list Z -> list Z).
  Hypothesis Hnb : (0 < nb)%nat.
  Hypothesis Hnc : (0 < nc)%nat.
  Hypothesis Hk : DEG = (k * nc)%nat.
  Hypothesis pack_len : forall c, length (pack c) = nb.
  Hypothesis unpack_len : forall b, length (unpack b) = nc.

  Lemma gen_read_length : forall p, length p = DEG ->
    length (flat_map pack (chunks_exact nc p)) = (k * nb)%nat.
  Proof.
    intros p Hp. rewrite Hk in Hp. apply (flat_map_chunks_length nc nb k); auto.
  Qed.

  Lemma gen_roundtrip : forall f p, length p = DEG ->
    (forall c, length c = nc -> unpack (pack c) = f c) ->
    fill_poly (flat_map unpack (chunks_exact nb (flat_map pack (chunks_exact nc p)))) =
    flat_map f (chunks_exact nc p).
  Proof.
    intros f p Hp Hf. rewrite Hk in Hp.
    rewrite (chunks_recode nc nb k) by auto.
    rewrite (flat_map_ext_Forall (fun c => length c = nc) _ f); auto.
    2: { apply (chunks_concat nc k p Hnc Hp). }
    apply fill_poly_id. rewrite Hk.
    apply (flat_map_chunks_length nc nc k); auto. intros c Hc. rewrite <- Hf; auto.
  Qed.

  Lemma gen_roundtrip_bytes : forall b, length b = (k * nb)%nat -> is_bytes b ->
    (forall c, length c = nb -> is_bytes c -> pack (unpack c) = c) ->
    flat_map pack (chunks_exact nc (fill_poly (flat_map unpack (chunks_exact nb b)))) = b.
  Proof.
    intros b Hl Hb Hf.
    assert (L : length (flat_map unpack (chunks_exact nb b)) = DEG).
    { rewrite Hk. apply (flat_map_chunks_length nb nc k); auto. }
    rewrite fill_poly_id by exact L.
    rewrite (chunks_recode nb nc k) by auto.
    rewrite (flat_map_ext_Forall (fun c => length c = nb /\ is_bytes c) _ (fun c => c)).
    - apply (chunk_id nb k); auto.
    - intros c [H1 H2]. auto.
    - destruct (chunks_concat nb k b Hnb Hl) as [_ [_ H3]].
      assert (H4 := Forall_chunks is_byte nb k b Hnb Hl Hb).
      apply Forall_forall. intros c Hc. rewrite Forall_forall in H3, H4.
      split; [apply H3|apply H4]; exact Hc.
  Qed.

  Lemma gen_from_length : forall b,
    length (fill_poly (flat_map unpack (chunks_exact nb b))) = DEG.
  Proof. intro b. apply fill_poly_length. Qed.
End Generic.

Lemma unpack_in_range : forall (unpack : list Z -> list Z) nb b,
  (forall c, is_bytes c -> Forall is_u16 (unpack c)) -> is_bytes b ->
  Forall is_u16 (fill_poly (flat_map unpack (chunks_exact nb b))).
Proof.
  intros unpack nb b H Hb. unfold fill_poly.
  assert (Forall is_u16 (flat_map unpack (chunks_exact nb b) ++ repeat 0 DEG)) as G.
  { apply Forall_app. split.
    - apply (Forall_flat_map is_bytes); auto.
      unfold chunks_exact. generalize (length b) as f. intro f.
      clear - Hb. revert b Hb. induction f as [|f IH]; intros b Hb; cbn; [constructor|].
      destruct (nb <=? length b)%nat; constructor.
      + apply is_bytes_firstn. exact Hb.
      + apply IH. apply is_bytes_skipn. exact Hb.
    - apply Forall_forall. intros x Hx. apply repeat_spec in Hx. subst. unfold is_u16. lia. }
  rewrite <- (firstn_skipn DEG (_ ++ _)) in G. apply Forall_app in G. tauto.
Qed.

Lemma byte_shiftr : forall x k, 0 <= k -> is_byte x -> is_byte (x >> k).
Proof.
  unfold is_byte. intros x k Hk H. rewrite Z.shiftr_div_pow2 by lia.
  assert (0 < 2 ^ k) by (apply Z.pow_pos_nonneg; lia).
  split; [apply Z.div_pos; lia|]. apply Z.div_lt_upper_bound; nia.
Qed.
Lemma u16_shiftr : forall x k, 0 <= k -> is_u16 x -> is_u16 (x >> k).
Proof.
  unfold is_u16. intros x k Hk H. rewrite Z.shiftr_div_pow2 by lia.
  assert (0 < 2 ^ k) by (apply Z.pow_pos_nonneg; lia).
  split; [apply Z.div_pos; lia|]. apply Z.div_lt_upper_bound; nia.
Qed.
Lemma byte_u16 : forall x, is_byte x -> is_u16 x.
Proof. unfold is_byte, is_u16. intros. lia. Qed.
Lemma u16_lor : forall x y, is_u16 x -> is_u16 y -> is_u16 (x .| y).
Proof. intros x y Hx Hy. apply (lor_bound x y 16); auto. lia. Qed.
Lemma byte_lor : forall x y, is_byte x -> is_byte y -> is_byte (x .| y).
Proof. intros x y Hx Hy. apply (lor_bound x y 8); auto. lia. Qed.
Lemma u16_land : forall x m, is_u16 m -> is_u16 (x .& m).
Proof. intros x m Hm. apply (land_bound x m 16); auto. lia. Qed.
Lemma byte_land : forall x m, is_byte m -> is_byte (x .& m).
Proof. intros x m Hm. apply (land_bound x m 8); auto. lia. Qed.
Lemma at_byte : forall l i, is_bytes l -> is_byte (at_ l i).
Proof.
  intros l i H. unfold at_. destruct (nth_in_or_default i l 0) as [Hi|Hd].
  - unfold is_bytes in H. rewrite Forall_forall in H. apply H. exact Hi.
  - rewrite Hd. unfold is_byte. lia.
Qed.
Lemma at_u16 : forall l i, Forall is_u16 l -> is_u16 (at_ l i).
Proof.
  intros l i H. unfold at_. destruct (nth_in_or_default i l 0) as [Hi|Hd].
  - rewrite Forall_forall in H. apply H. exact Hi.
  - rewrite Hd. unfold is_u16. lia.
Qed.

Ltac rng16 :=
  repeat first
   [ apply u16_lor | apply u16_range
   | apply u16_land; unfold is_u16; lia
   | apply byte_u16; apply u8_range
   | apply byte_u16; apply at_byte; assumption
   | apply u16_shiftr; [lia|]
   | apply byte_u16; assumption ].
Ltac rng8 :=
  repeat first
   [ apply byte_lor | apply u8_range | apply byte_land; unfold is_byte; lia ].

Lemma unpack13_u16 : forall c, is_bytes c -> Forall is_u16 (unpack13 c).
Proof.
  intros c H. unfold unpack13. apply Forall_map. apply Forall_forall. intros x _.
  apply u16_land. unfold is_u16. lia.
Qed.
Lemma unpack10_u16 : forall c, is_bytes c -> Forall is_u16 (unpack10 c).
Proof. intros c H. unfold unpack10, shl16, shl8. repeat constructor; rng16. Qed.
Lemma unpack6_u16 : forall c, is_bytes c -> Forall is_u16 (unpack6 c).
Proof. intros c H. unfold unpack6, shl16, shl8. repeat constructor; rng16. Qed.
Lemma unpack3_u16 : forall c, is_bytes c -> Forall is_u16 (unpack3 c).
Proof. intros c H. unfold unpack3, shl16, shl8. repeat constructor; rng16. Qed.

Lemma pack13_bytes : forall c, is_bytes (pack13 c).
Proof. intros c. unfold pack13, is_bytes. repeat constructor; rng8. Qed.
Lemma pack10_bytes : forall c, is_bytes (pack10 c).
Proof. intros c. unfold pack10, is_bytes. repeat constructor; rng8. Qed.
Lemma pack6_bytes : forall c, is_bytes (pack6 c).
Proof. intros c. unfold pack6, is_bytes. repeat constructor; rng8. Qed.
Lemma pack4_bytes : forall c, is_bytes (pack4 c).
Proof. intros c. unfold pack4, is_bytes. repeat constructor; rng8. Qed.
Lemma pack3_bytes : forall c, is_bytes (pack3 c).
Proof. intros c. unfold pack3, is_bytes. repeat constructor; rng8. Qed.
Lemma pack_msg_bytes : forall c, is_bytes (pack_msg c).
Proof.
  intros c. unfold pack_msg, is_bytes, shl8. cbn [seq fold_left]. constructor; [|constructor].
  repeat first [apply byte_lor | apply u8_range]. unfold is_byte. lia.
Qed.

Lemma flat_map_bytes : forall {A} (f : A -> list Z) l,
  (forall c, is_bytes (f c)) -> is_bytes (flat_map f l).
Proof.
  intros A f l H. induction l; cbn; [constructor|]. apply is_bytes_app. auto.
Qed.

(** ** 13 bit *)
Lemma read13_length : forall p, length p = DEG -> length (read_bytes_13bit p) = 416%nat.
Proof. intros. apply (gen_read_length 13 8 32 pack13); auto; try lia. Qed.
Lemma read13_bytes : forall p, is_bytes (read_bytes_13bit p).
Proof. intros. apply flat_map_bytes. apply pack13_bytes. Qed.
Lemma from13_read13 : forall p, length p = DEG ->
  from_bytes_13bit (read_bytes_13bit p) = map (fun x => x mod 8192) p.
Proof.
  intros p H. unfold from_bytes_13bit, read_bytes_13bit.
  rewrite (gen_roundtrip 13 8 32 pack13 unpack13) with (f := map (fun x => x mod 8192));
    auto; try lia.
  - apply (chunk_map _ 8 32); auto; lia.
  - intros. apply unpack13_pack13. assumption.
Qed.
Lemma read13_from13 : forall b, length b = 416%nat -> is_bytes b ->
  read_bytes_13bit (from_bytes_13bit b) = b.
Proof.
  intros b H Hb. unfold from_bytes_13bit, read_bytes_13bit.
  apply (gen_roundtrip_bytes 13 8 32 pack13 unpack13); auto; try lia.
  intros. apply pack13_unpack13; assumption.
Qed.
Lemma from13_wf : forall b, is_bytes b -> wf_poly (from_bytes_13bit b).
Proof.
  intros b H. split; [apply fill_poly_length|].
  apply unpack_in_range; [apply unpack13_u16|exact H].
Qed.

(** ** 10 bit *)
Lemma read10_length : forall p, length p = DEG -> length (read_bytes_10bit p) = 320%nat.
Proof. intros. apply (gen_read_length 5 4 64 pack10); auto; try lia. Qed.
Lemma read10_bytes : forall p, is_bytes (read_bytes_10bit p).
Proof. intros. apply flat_map_bytes. apply pack10_bytes. Qed.
Lemma from10_read10 : forall p, length p = DEG ->
  from_bytes_10bit (read_bytes_10bit p) = map (fun x => x mod 1024) p.
Proof.
  intros p H. unfold from_bytes_10bit, read_bytes_10bit.
  rewrite (gen_roundtrip 5 4 64 pack10 unpack10) with (f := map (fun x => x mod 1024));
    auto; try lia.
  - apply (chunk_map _ 4 64); auto; lia.
  - intros. apply unpack10_pack10. assumption.
Qed.
Lemma read10_from10 : forall b, length b = 320%nat -> is_bytes b ->
  read_bytes_10bit (from_bytes_10bit b) = b.
Proof.
  intros b H Hb. unfold from_bytes_10bit, read_bytes_10bit.
  apply (gen_roundtrip_bytes 5 4 64 pack10 unpack10); auto; try lia.
  intros. apply pack10_unpack10; assumption.
Qed.
Lemma from10_wf : forall b, is_bytes b -> wf_poly (from_bytes_10bit b).
Proof.
  intros b H. split; [apply fill_poly_length|].
  apply unpack_in_range; [apply unpack10_u16|exact H].
Qed.

(** ** 6 bit *)
Lemma read6_length : forall p, length p = DEG -> length (read_bytes_6bit p) = 192%nat.
Proof. intros. apply (gen_read_length 3 4 64 pack6); auto; try lia. Qed.
Lemma read6_bytes : forall p, is_bytes (read_bytes_6bit p).
Proof. intros. apply flat_map_bytes. apply pack6_bytes. Qed.
Lemma from6_read6 : forall p, length p = DEG ->
  from_bytes_6bit (read_bytes_6bit p) = map (fun x => x mod 64) p.
Proof.
  intros p H. unfold from_bytes_6bit, read_bytes_6bit.
  rewrite (gen_roundtrip 3 4 64 pack6 unpack6) with (f := map (fun x => x mod 64));
    auto; try lia.
  - apply (chunk_map _ 4 64); auto; lia.
  - intros. apply unpack6_pack6. assumption.
Qed.
Lemma read6_from6 : forall b, length b = 192%nat -> is_bytes b ->
  read_bytes_6bit (from_bytes_6bit b) = b.
Proof.
  intros b H Hb. unfold from_bytes_6bit, read_bytes_6bit.
  apply (gen_roundtrip_bytes 3 4 64 pack6 unpack6); auto; try lia.
  intros. apply pack6_unpack6; assumption.
Qed.

(** ** 4 bit *)
Lemma chunks1 : forall (l : list Z), chunks_exact 1 l = map (fun x => [x]) l.
Proof.
  induction l as [|x l IH]; [reflexivity|].
  change (x :: l) with ([x] ++ l). rewrite chunks_cons by auto.
  cbn [map app]. f_equal. exact IH.
Qed.
Lemma from4_chunks : forall b,
  from_bytes_4bit b = fill_poly (flat_map (fun c => unpack4 (at_ c 0)) (chunks_exact 1 b)).
Proof.
  intro b. unfold from_bytes_4bit. f_equal. rewrite chunks1.
  rewrite !flat_map_concat_map, map_map. reflexivity.
Qed.
Lemma read4_length : forall p, length p = DEG -> length (read_bytes_4bit p) = 128%nat.
Proof. intros. apply (gen_read_length 1 2 128 pack4); auto; try lia. Qed.
Lemma read4_bytes : forall p, is_bytes (read_bytes_4bit p).
Proof. intros. apply flat_map_bytes. apply pack4_bytes. Qed.
Lemma from4_read4 : forall p, length p = DEG ->
  from_bytes_4bit (read_bytes_4bit p) = map (fun x => x mod 16) p.
Proof.
  intros p H. rewrite from4_chunks. unfold read_bytes_4bit.
  rewrite (gen_roundtrip 1 2 128 pack4 (fun c => unpack4 (at_ c 0)))
    with (f := map (fun x => x mod 16)); auto; try lia.
  - apply (chunk_map _ 2 128); auto; lia.
  - intros c Hc. rewrite <- (unpack4_pack4 c Hc). cbn [flat_map pack4 app at_ nth].
    rewrite app_nil_r. reflexivity.
Qed.
Lemma read4_from4 : forall b, length b = 128%nat -> is_bytes b ->
  read_bytes_4bit (from_bytes_4bit b) = b.
Proof.
  intros b H Hb. rewrite from4_chunks. unfold read_bytes_4bit.
  apply (gen_roundtrip_bytes 1 2 128 pack4 (fun c => unpack4 (at_ c 0))); auto; try lia.
  intros c Hc Hb'. destr_list c Hc. unfold is_bytes in Hb'. inv_forall.
  apply pack4_unpack4. assumption.
Qed.

(** ** 3 bit *)
Lemma read3_length : forall p, length p = DEG -> length (read_bytes_3bit p) = 96%nat.
Proof. intros. apply (gen_read_length 3 8 32 pack3); auto; try lia. Qed.
Lemma read3_bytes : forall p, is_bytes (read_bytes_3bit p).
Proof. intros. apply flat_map_bytes. apply pack3_bytes. Qed.

(** Apply [f] with the index of each element. *)
Fixpoint mapi_from {A B} (i : nat) (f : nat -> A -> B) (l : list A) : list B :=
  match l with [] => [] | x :: t => f i x :: mapi_from (S i) f t end.
Definition mapi {A B} (f : nat -> A -> B) (l : list A) := mapi_from 0 f l.

Lemma mapi_from_app : forall {A B} (f : nat -> A -> B) l1 l2 i,
  mapi_from i f (l1 ++ l2) = mapi_from i f l1 ++ mapi_from (i + length l1) f l2.
Proof.
  induction l1 as [|x l1 IH]; intros l2 i; cbn.
  - rewrite Nat.add_0_r. reflexivity.
  - rewrite IH. rewrite Nat.add_succ_r. reflexivity.
Qed.
Lemma mapi_from_length : forall {A B} (f : nat -> A -> B) l i,
  length (mapi_from i f l) = length l.
Proof. induction l; intros; cbn; auto. Qed.
Lemma nth_mapi_from : forall {A B} (f : nat -> A -> B) l i k d d',
  (k < length l)%nat -> nth k (mapi_from i f l) d' = f (i + k)%nat (nth k l d).
Proof.
  induction l as [|x l IH]; intros i k d d' H; cbn in *; [lia|].
  destruct k; [f_equal; lia|]. rewrite (IH (S i) k d d') by lia. f_equal. lia.
Qed.

(** What comes back from the 3-bit codec. *)
Definition hint3_back (i : nat) (x : Z) : Z :=
  if (i mod 8 =? 5)%nat then damage3 (x mod 8) else x mod 8.

Lemma hint3_chunks : forall k l j, length l = (k * 8)%nat ->
  flat_map (fun c => mapi_from 0 hint3_back c) (chunks_exact 8 l) = mapi_from (j * 8) hint3_back l.
Proof.
  induction k as [|k IH]; intros l j Hl.
  - destruct l; [reflexivity|cbn in Hl; lia].
  - rewrite <- (firstn_skipn 8 l). 
    assert (F : length (firstn 8 l) = 8%nat) by (apply firstn_length_le; lia).
    rewrite chunks_cons; [|lia|exact F]. cbn [flat_map].
    rewrite mapi_from_app, F. f_equal.
    + destruct (firstn 8 l) as [|a [|b [|c [|d [|e [|f [|g [|h [|]]]]]]]]]; cbn in F; try lia.
      unfold mapi_from, hint3_back.
      replace (j * 8)%nat with (0 + j * 8)%nat by lia.
      rewrite <- !Nat.add_succ_l, !Nat.mod_add by lia. reflexivity.
    + replace (j * 8 + 8)%nat with (S j * 8)%nat by lia.
      apply IH. rewrite skipn_length. lia.
Qed.

Lemma from3_read3 : forall p, length p = DEG ->
  from_bytes_3bit (read_bytes_3bit p) = mapi hint3_back p.
Proof.
  intros p H. unfold from_bytes_3bit, read_bytes_3bit.
  rewrite (gen_roundtrip 3 8 32 pack3 unpack3) with (f := fun c => mapi_from 0 hint3_back c);
    auto; try lia.
  - apply (hint3_chunks 32 p 0). exact H.
  - intros c Hc. rewrite unpack3_pack3 by exact Hc. destr_list c Hc. reflexivity.
Qed.

(** ** Messages *)
Lemma from_msg_bits : forall m, length m = MESSAGEBYTES ->
  from_msg m = map (fun x => 512 * x) (flat_map byte_bits m).
Proof.
  intros m H. unfold from_msg.
  assert (E : flat_map unpack_msg m = map (fun x => 512 * x) (flat_map byte_bits m)).
  { rewrite !flat_map_concat_map, concat_map, map_map. f_equal. apply map_ext.
    apply unpack_msg_bits. }
  rewrite E. apply fill_poly_id. rewrite map_length. clear E.
  assert (G : forall l, length (flat_map byte_bits l) = (length l * 8)%nat).
  { induction l; cbn [flat_map length]; auto. rewrite app_length, IHl. reflexivity. }
  rewrite G, H. reflexivity.
Qed.

Lemma byte_bits_length : forall l, length (flat_map byte_bits l) = (length l * 8)%nat.
Proof.
  induction l; cbn [flat_map length]; auto. rewrite app_length, IHl. reflexivity.
Qed.

Lemma read_msg_bits : forall m, is_bytes m ->
  read_bytes_msg (flat_map byte_bits m) = m.
Proof.
  intros m Hm. unfold read_bytes_msg. induction m as [|b m IH]; [reflexivity|].
  unfold is_bytes in Hm. inv_forall. cbn [flat_map]. rewrite chunks_cons by (auto; lia).
  cbn [flat_map]. rewrite pack_msg_byte_bits by assumption. cbn [app]. f_equal.
  apply IH. assumption.
Qed.

Lemma read_msg_length : forall p, length p = DEG -> length (read_bytes_msg p) = 32%nat.
Proof. intros. apply (gen_read_length 1 8 32 pack_msg); auto; try lia. Qed.
Lemma read_msg_bytes : forall p, is_bytes (read_bytes_msg p).
Proof. intros. apply flat_map_bytes. apply pack_msg_bytes. Qed.
