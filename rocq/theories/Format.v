(** * Format: every serialised polynomial is the little-endian bit string of its coefficients. *)
From Coq Require Import ZArith List Lia Bool.
From Verif Require Import Base Bits SaberPoly SaberCodec SaberCodec2 SaberCodec3 SaberRing SaberKem DilArith DilNtt DilPoly DilPack DilCodec DilCodec2.
Import ListNotations.
Open Scope Z_scope.

(** ** Specification *)
(** Bit [j] of a byte string: bit [j mod 8] of byte [j / 8]. *)
Definition bit_at (b : bytes) (j : nat) : bool := Z.testbit (nth (j / 8) b 0) (Z.of_nat (j mod 8)).
(** [b] is the concatenation of the low [w] bits of each value of [l], low bits first. *)
Definition bit_packed (w : nat) (l : list Z) (b : bytes) : Prop :=
  (8 * length b = w * length l)%nat /\ is_bytes b /\
  forall k i, (k < length l)%nat -> (i < w)%nat -> bit_at b (w * k + i) = Z.testbit (nth k l 0) (Z.of_nat i).

(** It determines the bytes. *)
Theorem bit_packed_unique : forall w l b b', (0 < w)%nat -> bit_packed w l b -> bit_packed w l b' -> b = b'.
Proof.
  intros w l b b' W (L & B & H) (L' & B' & H'). assert (LL : length b = length b') by lia.
  apply (nth_ext _ _ 0 0 LL). intros x Hx. unfold is_bytes in B, B'.
  assert (R : is_byte (nth x b 0)) by (rewrite Forall_forall in B; apply B; apply nth_In; exact Hx).
  assert (R' : is_byte (nth x b' 0)) by (rewrite Forall_forall in B'; apply B'; apply nth_In; lia).
  apply (bits_eq_below 8); [lia|exact R|exact R'|]. intros n Hn.
  set (j := (8 * x + Z.to_nat n)%nat).
  assert (Q1 : (j / w < length l)%nat) by (apply Nat.div_lt_upper_bound; unfold j; lia).
  assert (Q2 : (j mod w < w)%nat) by (apply Nat.mod_upper_bound; lia).
  pose proof (H _ _ Q1 Q2) as G. rewrite <- (H' _ _ Q1 Q2) in G. rewrite <- Nat.div_mod in G by lia. clear Q1 Q2. unfold j in G.
  assert (N8 : (Z.to_nat n < 8)%nat) by lia. unfold bit_at in G.
  rewrite !(Nat.mul_comm 8 x), !Nat.div_add_l in G by discriminate.
  rewrite (Nat.div_small (Z.to_nat n) 8 N8), Nat.add_0_r in G.
  rewrite (Nat.add_comm (x * 8)), Nat.mod_add, (Nat.mod_small (Z.to_nat n) 8 N8) in G by discriminate.
  rewrite Z2Nat.id in G by lia. exact G.
Qed.
(** It determines the values, when they have at most [w] bits. *)
Theorem bit_packed_inj : forall w l l' b, bit_packed w l b -> bit_packed w l' b -> length l = length l' ->
  Forall (fun x => 0 <= x < 2 ^ Z.of_nat w) l -> Forall (fun x => 0 <= x < 2 ^ Z.of_nat w) l' -> l = l'.
Proof.
  intros w l l' b (_ & _ & H) (_ & _ & H') L F F'. apply (nth_ext _ _ 0 0 L). intros k Hk.
  rewrite Forall_forall in F, F'. apply (bits_eq_below (Z.of_nat w)); [lia|apply F, nth_In; exact Hk|apply F', nth_In; lia|].
  intros n Hn. specialize (H k (Z.to_nat n) Hk ltac:(lia)). specialize (H' k (Z.to_nat n) ltac:(lia) ltac:(lia)).
  rewrite Z2Nat.id in H, H' by lia. congruence.
Qed.

(** ** From chunks to polynomials to vectors *)
Lemma bit_packed_nil : forall w, bit_packed w [] [].
Proof. intro w. split; [cbn; lia|]. split; [constructor|]. intros k i H. cbn in H. lia. Qed.
Lemma bit_packed_app : forall w l1 l2 b1 b2, bit_packed w l1 b1 -> bit_packed w l2 b2 -> bit_packed w (l1 ++ l2) (b1 ++ b2).
Proof.
  intros w l1 l2 b1 b2 (L1 & B1 & H1) (L2 & B2 & H2). split; [rewrite !app_length; lia|]. split; [apply Forall_app; auto|].
  intros k i Hk Hi. rewrite app_length in Hk. unfold bit_at. destruct (Nat.lt_ge_cases k (length l1)) as [K|K].
  - rewrite (app_nth1 l1) by exact K. rewrite app_nth1; [apply H1; assumption|]. apply Nat.div_lt_upper_bound; [lia|]. nia.
  - rewrite (app_nth2 l1) by exact K. rewrite <- H2 by lia.
    replace (w * k + i)%nat with (w * (k - length l1) + i + length b1 * 8)%nat by nia.
    rewrite Nat.div_add, Nat.mod_add by discriminate. rewrite app_nth2 by lia. unfold bit_at. do 2 f_equal. lia.
Qed.
Lemma bit_packed_vec : forall w (enc : Z -> Z) (f : poly -> bytes) v, Forall (fun a => bit_packed w (map enc a) (f a)) v ->
  bit_packed w (map enc (concat v)) (flat_map f v).
Proof.
  intros w enc f v F. induction F as [|a v H F IH]; [apply bit_packed_nil|]. cbn [concat flat_map]. rewrite map_app. apply bit_packed_app; assumption.
Qed.
Lemma bit_packed_chunks : forall w n m (P : Z -> Prop) (enc : Z -> Z) (f : list Z -> bytes), (0 < n)%nat -> (8 * m = w * n)%nat ->
  (forall c, length c = n -> Forall P c -> bit_packed w (map enc c) (f c)) ->
  forall k a, length a = (k * n)%nat -> Forall P a -> bit_packed w (map enc a) (flat_map f (chunks_exact n a)).
Proof.
  intros w n m P enc f Hn Hm H. induction k as [|k IH]; intros a L F.
  - destruct a; [|discriminate L]. cbn. apply bit_packed_nil.
  - rewrite <- (firstn_skipn n a). rewrite <- (firstn_skipn n a) in F. apply Forall_app in F. destruct F as [F1 F2].
    rewrite chunks_cons by (try exact Hn; rewrite firstn_length; lia). cbn [flat_map]. rewrite map_app. apply bit_packed_app.
    + apply H; [rewrite firstn_length; lia|exact F1].
    + apply IH; [rewrite skipn_length; lia|exact F2].
Qed.

(** ** The chunk packers *)
Ltac each i w := match w with O => exfalso; lia | S ?w' => destruct i as [|i]; [|each i w'] end.
Ltac norm_idx :=
  match goal with |- Z.testbit (nth ?x ?l ?d) ?j = Z.testbit ?r ?h =>
    let x' := eval vm_compute in x in
    let j' := eval vm_compute in j in let h' := eval vm_compute in h in
    change (Z.testbit (nth x' l d) j' = Z.testbit r h') end; cbn [nth].
Ltac one_bit := norm_idx; unfold shl16, shl8; simpl_bits; const_bits; bool_simpl; high_bits; const_bits; bool_simpl; try reflexivity.
Ltac chunk_bits n w :=
  let k := fresh "k" in let i := fresh "i" in let Hk := fresh "Hk" in let Hi := fresh "Hi" in
  intros k i Hk Hi; cbn [length] in Hk; unfold bit_at; each k n; each i w; one_bit.

Lemma pack13_bits : forall c, length c = 8%nat -> bit_packed 13 c (pack13 c).
Proof.
  intros c H. destr_list c H. split; [reflexivity|]. split.
  { unfold is_bytes, pack13. repeat constructor; try apply byte_lor; apply u8_byte. }
  unfold pack13, at_; cbn [nth]. chunk_bits 8%nat 13%nat.
Qed.
Lemma pack10_bits : forall c, length c = 4%nat -> bit_packed 10 c (pack10 c).
Proof.
  intros c H. destr_list c H. split; [reflexivity|]. split.
  { unfold is_bytes, pack10. repeat constructor; try apply byte_lor; apply u8_byte. }
  unfold pack10, at_; cbn [nth]. chunk_bits 4%nat 10%nat.
Qed.
Lemma pack6_bits : forall c, length c = 4%nat -> bit_packed 6 c (pack6 c).
Proof.
  intros c H. destr_list c H. split; [reflexivity|]. split.
  { unfold is_bytes, pack6. repeat constructor; try apply byte_lor; apply u8_byte. }
  unfold pack6, at_; cbn [nth]. chunk_bits 4%nat 6%nat.
Qed.
Lemma pack4_bits : forall c, length c = 2%nat -> bit_packed 4 c (pack4 c).
Proof.
  intros c H. destr_list c H. split; [reflexivity|]. split.
  { unfold is_bytes, pack4. repeat constructor; try apply byte_lor; apply u8_byte. }
  unfold pack4, at_; cbn [nth]. chunk_bits 2%nat 4%nat.
Qed.
Lemma eta_pack8_bits : forall c, length c = 8%nat -> Forall (below 3) c -> bit_packed 3 c (eta_pack8 c).
Proof.
  intros c H Hc. destr_list c H. unfold below in Hc. inv_forall. split; [reflexivity|]. split.
  { unfold is_bytes, eta_pack8. repeat constructor; try apply byte_lor; apply u8_byte. }
  unfold eta_pack8, at_; cbn [nth]. chunk_bits 8%nat 3%nat.
Qed.
Lemma t1_pack4_bits : forall c, length c = 4%nat -> Forall (below 10) c -> bit_packed 10 c (t1_pack4 c).
Proof.
  intros c H Hc. destr_list c H. unfold below in Hc. inv_forall. split; [reflexivity|]. split.
  { unfold is_bytes, t1_pack4. repeat constructor; try apply byte_lor; apply u8_byte. }
  unfold t1_pack4, at_; cbn [nth]. chunk_bits 4%nat 10%nat.
Qed.
Lemma t0_pack8_bits : forall c, length c = 8%nat -> Forall (below 13) c -> bit_packed 13 c (t0_pack8 c).
Proof.
  intros c H Hc. destr_list c H. unfold below in Hc. inv_forall. split; [reflexivity|]. split.
  { unfold is_bytes, t0_pack8. repeat constructor; try apply byte_lor; apply u8_byte. }
  unfold t0_pack8, at_; cbn [nth]. chunk_bits 8%nat 13%nat.
Qed.
Lemma z_pack4_bits : forall c, length c = 4%nat -> Forall (below 18) c -> bit_packed 18 c (z_pack4 c).
Proof.
  intros c H Hc. destr_list c H. unfold below in Hc. inv_forall. split; [reflexivity|]. split.
  { unfold is_bytes, z_pack4. repeat constructor; try apply byte_lor; apply u8_byte. }
  unfold z_pack4, at_; cbn [nth]. chunk_bits 4%nat 18%nat.
Qed.
Lemma w1_pack4_bits : forall c, length c = 4%nat -> Forall (below 6) c -> bit_packed 6 c (w1_pack4 c).
Proof.
  intros c H Hc. destr_list c H. unfold below in Hc. inv_forall. split; [reflexivity|]. split.
  { unfold is_bytes, w1_pack4. repeat constructor; try apply byte_lor; apply u8_byte. }
  unfold w1_pack4, at_; cbn [nth]. chunk_bits 4%nat 6%nat.
Qed.
Lemma unpack3_bits : forall b, length b = 3%nat -> is_bytes b -> bit_packed 3 (unpack3 b) b.
Proof.
  intros b H Hb. assert (Hb' := Hb). destr_list b H. unfold is_bytes in Hb. inv_forall. split; [reflexivity|]. split; [exact Hb'|].
  unfold unpack3, at_; cbn [nth]. chunk_bits 8%nat 3%nat.
Qed.

(** ** Polynomials and vectors: Saber *)
Lemma all_true : forall (l : list Z), Forall (fun _ => True) l. Proof. intro l. apply Forall_forall. auto. Qed.
Lemma bit_packed_poly : forall w n m (f : list Z -> bytes), (0 < n)%nat -> (8 * m = w * n)%nat ->
  (forall c, length c = n -> bit_packed w c (f c)) -> forall k a, length a = (k * n)%nat -> bit_packed w a (flat_map f (chunks_exact n a)).
Proof.
  intros w n m f Hn Hm H k a L. rewrite <- (map_id a) at 1. apply (bit_packed_chunks w n m (fun _ => True) (fun x => x) f Hn Hm) with (k := k);
    [|exact L|apply all_true]. intros c Lc _. rewrite map_id. apply H. exact Lc.
Qed.

Theorem saber_13bit_format : forall p, length p = DEG -> bit_packed 13 p (read_bytes_13bit p).
Proof. intros p L. apply (bit_packed_poly 13 8 13 pack13) with (k := 32%nat); [lia|reflexivity|exact pack13_bits|exact L]. Qed.
Theorem saber_10bit_format : forall p, length p = DEG -> bit_packed 10 p (read_bytes_10bit p).
Proof. intros p L. apply (bit_packed_poly 10 4 5 pack10) with (k := 64%nat); [lia|reflexivity|exact pack10_bits|exact L]. Qed.
Theorem saber_6bit_format : forall p, length p = DEG -> bit_packed 6 p (read_bytes_6bit p).
Proof. intros p L. apply (bit_packed_poly 6 4 3 pack6) with (k := 64%nat); [lia|reflexivity|exact pack6_bits|exact L]. Qed.
Theorem saber_4bit_format : forall p, length p = DEG -> bit_packed 4 p (read_bytes_4bit p).
Proof. intros p L. apply (bit_packed_poly 4 2 1 pack4) with (k := 128%nat); [lia|reflexivity|exact pack4_bits|exact L]. Qed.

(** Parsing: the decoded values are the bits of the string. *)
Theorem saber_13bit_parse : forall b, length b = 416%nat -> is_bytes b -> bit_packed 13 (from_bytes_13bit b) b.
Proof.
  intros b L B. rewrite <- (read13_from13 b L B) at 2. apply saber_13bit_format. apply fill_poly_length.
Qed.
Theorem saber_10bit_parse : forall b, length b = 320%nat -> is_bytes b -> bit_packed 10 (from_bytes_10bit b) b.
Proof.
  intros b L B. rewrite <- (read10_from10 b L B) at 2. apply saber_10bit_format. apply fill_poly_length.
Qed.
Theorem saber_6bit_parse : forall b, length b = 192%nat -> is_bytes b -> bit_packed 6 (from_bytes_6bit b) b.
Proof.
  intros b L B. rewrite <- (read6_from6 b L B) at 2. apply saber_6bit_format. apply fill_poly_length.
Qed.
Theorem saber_4bit_parse : forall b, length b = 128%nat -> is_bytes b -> bit_packed 4 (from_bytes_4bit b) b.
Proof.
  intros b L B. rewrite <- (read4_from4 b L B) at 2. apply saber_4bit_format. apply fill_poly_length.
Qed.
Lemma bit_packed_unchunks : forall w n m (g : list Z -> list Z), (0 < n)%nat -> (0 < m)%nat -> (8 * m = w * n)%nat ->
  (forall b, length b = m -> is_bytes b -> bit_packed w (g b) b) ->
  forall k b, length b = (k * m)%nat -> is_bytes b -> bit_packed w (flat_map g (chunks_exact m b)) b.
Proof.
  intros w n m g Hn Hm E H. induction k as [|k IH]; intros b L B.
  - destruct b; [|discriminate L]. cbn. apply bit_packed_nil.
  - rewrite <- (firstn_skipn m b). rewrite <- (firstn_skipn m b) in B. apply Forall_app in B. destruct B as [B1 B2].
    rewrite chunks_cons by (try exact Hm; rewrite firstn_length; lia). cbn [flat_map]. apply bit_packed_app.
    + apply H; [rewrite firstn_length; lia|exact B1].
    + apply IH; [rewrite skipn_length; lia|exact B2].
Qed.
Lemma unpack3_len : forall b, length (unpack3 b) = 8%nat. Proof. reflexivity. Qed.
Theorem saber_3bit_parse : forall b, length b = 96%nat -> is_bytes b -> bit_packed 3 (from_bytes_3bit b) b.
Proof.
  intros b L B. unfold from_bytes_3bit.
  pose proof (bit_packed_unchunks 3 8 3 unpack3 ltac:(lia) ltac:(lia) eq_refl unpack3_bits 32 b L B) as H.
  rewrite fill_poly_id; [exact H|]. destruct H as [H _]. rewrite L in H. unfold DEG. lia.
Qed.
(** LightSaber's hint encoder writes, in place of the low bit of every coefficient 8 j + 5, its high
    bit ([hint3_back], SaberCodec2.v); every other bit is where the format has it. *)
Theorem saber_3bit_format : forall p, length p = DEG -> bit_packed 3 (mapi hint3_back p) (read_bytes_3bit p).
Proof.
  intros p L. rewrite <- (from3_read3 p L). apply saber_3bit_parse; [apply read3_length; exact L|apply read3_bytes].
Qed.

(** Vectors: the public key's is 10 bits per coefficient, the secret key's 13. *)
Theorem saber_pk_vec_format : forall v, Forall (fun p => length p = DEG) v -> bit_packed 10 (concat v) (read_mod_p v).
Proof.
  intros v F. rewrite <- (map_id (concat v)). apply bit_packed_vec. eapply Forall_impl; [|exact F]. intros p Hp. cbv beta.
  rewrite map_id. apply saber_10bit_format. exact Hp.
Qed.
Theorem saber_sk_vec_format : forall v, Forall (fun p => length p = DEG) v -> bit_packed 13 (concat v) (read_mod_q v).
Proof.
  intros v F. rewrite <- (map_id (concat v)). apply bit_packed_vec. eapply Forall_impl; [|exact F]. intros p Hp. cbv beta.
  rewrite map_id. apply saber_13bit_format. exact Hp.
Qed.

(** ** Polynomials and vectors: Dilithium2 *)
Lemma map_ext_forall : forall (f g : Z -> Z) (P : Z -> Prop) l, (forall x, P x -> f x = g x) -> Forall P l -> map f l = map g l.
Proof. intros f g P l H F. induction F as [|x l Hx F IH]; [reflexivity|]. cbn [map]. rewrite (H x Hx), IH. reflexivity. Qed.
Lemma enc_bits : forall w n (P : Z -> Prop) (e e' : Z -> Z) (f : list Z -> bytes),
  (forall c, length c = n -> Forall (below (Z.of_nat w)) c -> bit_packed w c (f c)) ->
  (forall x, P x -> e' x = e x) -> (forall x, P x -> below (Z.of_nat w) (e x)) ->
  forall c, length c = n -> Forall P c -> bit_packed w (map e c) (f (map e' c)).
Proof.
  intros w n P e e' f H E B c L F. rewrite (map_ext_forall e' e P) by assumption. apply H; [rewrite map_length; exact L|].
  apply Forall_map. eapply Forall_impl; [|exact F]. exact B.
Qed.
Theorem dil_eta_format : forall a, length a = 256%nat -> Forall eta_range a -> bit_packed 3 (map (fun x => 2 - x) a) (polyeta_pack a).
Proof.
  intros a L F. apply (bit_packed_chunks 3 8 3 eta_range) with (k := 32%nat); [lia|reflexivity| |exact L|exact F].
  apply (enc_bits 3 8 eta_range (fun x => 2 - x) (fun x => u8 (ETA - x)) eta_pack8 eta_pack8_bits).
  - intros x Hx. unfold eta_range, ETA in *. apply u8_id. unfold is_byte. lia.
  - intros x Hx. unfold eta_range, below in *. change (2 ^ Z.of_nat 3) with 8. lia.
Qed.
Theorem dil_t0_format : forall a, length a = 256%nat -> Forall t0_range a -> bit_packed 13 (map (fun x => 4096 - x) a) (polyt0_pack a).
Proof.
  intros a L F. apply (bit_packed_chunks 13 8 13 t0_range) with (k := 32%nat); [lia|reflexivity| |exact L|exact F].
  apply (enc_bits 13 8 t0_range (fun x => 4096 - x) (fun x => u32 (4096 - x)) t0_pack8 t0_pack8_bits).
  - intros x Hx. unfold t0_range in *. apply u32_id. lia.
  - intros x Hx. unfold t0_range, below in *. change (2 ^ Z.of_nat 13) with 8192. lia.
Qed.
Theorem dil_z_format : forall a, length a = 256%nat -> Forall z_range a -> bit_packed 18 (map (fun x => 131072 - x) a) (polyz_pack a).
Proof.
  intros a L F. apply (bit_packed_chunks 18 4 9 z_range) with (k := 64%nat); [lia|reflexivity| |exact L|exact F].
  apply (enc_bits 18 4 z_range (fun x => 131072 - x) (fun x => u32 (GAMMA1 - x)) z_pack4 z_pack4_bits).
  - intros x Hx. unfold z_range, GAMMA1 in *. apply u32_id. lia.
  - intros x Hx. unfold z_range, GAMMA1, below in *. change (2 ^ Z.of_nat 18) with 262144. lia.
Qed.
Theorem dil_t1_format : forall a, length a = 256%nat -> Forall t1_range a -> bit_packed 10 a (polyt1_pack a).
Proof.
  intros a L F. rewrite <- (map_id a) at 1. apply (bit_packed_chunks 10 4 5 t1_range) with (k := 64%nat); [lia|reflexivity| |exact L|exact F].
  intros c Lc Fc. rewrite map_id. apply t1_pack4_bits; [exact Lc|exact Fc].
Qed.
Theorem dil_w1_format : forall a, length a = 256%nat -> Forall w1_range a -> bit_packed 6 a (polyw1_pack a).
Proof.
  intros a L F. rewrite <- (map_id a) at 1. apply (bit_packed_chunks 6 4 3 w1_range) with (k := 64%nat); [lia|reflexivity| |exact L|exact F].
  intros c Lc Fc. rewrite map_id. apply w1_pack4_bits; [exact Lc|exact Fc].
Qed.
(** Parsing. *)
Theorem dil_eta_parse : forall b, length b = 96%nat -> is_bytes b -> bit_packed 3 (map (fun x => 2 - x) (polyeta_unpack b)) b.
Proof.
  intros b L B. rewrite <- (polyeta_pack_un b L B) at 2. apply dil_eta_format; [apply polyeta_unpack_length; exact L|apply polyeta_unpack_range].
Qed.
Theorem dil_t1_parse : forall b, length b = 320%nat -> is_bytes b -> bit_packed 10 (polyt1_unpack b) b.
Proof.
  intros b L B. rewrite <- (polyt1_pack_un b L B) at 2. apply dil_t1_format; [apply polyt1_unpack_length; exact L|apply polyt1_unpack_range].
Qed.
Theorem dil_t0_parse : forall b, length b = 416%nat -> is_bytes b -> bit_packed 13 (map (fun x => 4096 - x) (polyt0_unpack b)) b.
Proof.
  intros b L B. rewrite <- (polyt0_pack_un b L B) at 2. apply dil_t0_format; [apply polyt0_unpack_length; exact L|apply polyt0_unpack_range].
Qed.
Theorem dil_z_parse : forall b, length b = 576%nat -> is_bytes b -> bit_packed 18 (map (fun x => 131072 - x) (polyz_unpack b)) b.
Proof.
  intros b L B. rewrite <- (polyz_pack_un b L B) at 2. apply dil_z_format; [apply polyz_unpack_length; exact L|apply polyz_unpack_range].
Qed.
