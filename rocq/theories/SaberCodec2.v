(** * SaberCodec2: the 3-bit codec (with its bug) and the message codec. *)
From Coq Require Import ZArith List Lia Bool.
From Verif Require Import Base Bits SaberPoly SaberCodec.
Import ListNotations.
Open Scope Z_scope.

(** The 3-bit codec of LightSaber: coefficient 5 of each group of 8 comes back with its
    bit 0 replaced by its bit 2. *)
Definition damage3 (x : Z) : Z := x - x mod 2 + x / 4.

Lemma damage3_bits : forall x, 0 <= x < 8 ->
  ((x >> 2) .& 1) .| Z.shiftl ((x >> 1) .& 3) 1 = damage3 x.
Proof.
  intros x H.
  assert (x = 0 \/ x = 1 \/ x = 2 \/ x = 3 \/ x = 4 \/ x = 5 \/ x = 6 \/ x = 7) as D by lia.
  destruct D as [->|[->|[->|[->|[->|[->|[->| ->]]]]]]]; reflexivity.
Qed.

Lemma damage3_elem : forall z a b c d e,
  ((u8 (a .& 1) .| u8 (shl16 (b .& 7) 1) .| u8 (shl16 (c .& 7) 4)
      .| u8 (shl16 ((z >> 2) .& 1) 7)) >> 7 .& 1)
  .| shl8 ((u8 ((z >> 1) .& 3) .| u8 (shl16 (d .& 7) 2) .| u8 (shl16 (e .& 7) 5)) .& 3) 1
  = damage3 (z mod 8).
Proof.
  intros z a b c d e.
  rewrite <- (damage3_bits (z mod 8)) by (apply Z.mod_pos_bound; lia).
  change 8 with (2^3); rewrite <- (land_mask_mod _ 3) by lia; change (2^3-1) with 7.
  bitwise 16.
  - bnd.
  - assert (0 <= (z .& 7) < 8) by (change 8 with (2^3); apply land_bound; lia).
    rewrite damage3_bits by lia. unfold damage3.
    pose proof (Z.mod_pos_bound (z .& 7) 2). pose proof (Z.div_pos (z .& 7) 4).
    assert ((z .& 7) / 4 < 2) by (apply Z.div_lt_upper_bound; lia).
    change (2^16) with 65536.
    assert ((z .& 7) mod 2 <= z .& 7) by (apply Z.mod_le; lia). lia.
Qed.

Lemma unpack3_pack3 : forall c, length c = 8%nat ->
  unpack3 (pack3 c) =
  [ at_ c 0 mod 8; at_ c 1 mod 8; at_ c 2 mod 8; at_ c 3 mod 8; at_ c 4 mod 8;
    damage3 (at_ c 5 mod 8); at_ c 6 mod 8; at_ c 7 mod 8 ].
Proof.
  intros c H. destr_list c H.
  cbv [unpack3 pack3 at_ nth map]. per_elem.
  all: try apply damage3_elem.
  all: (change 8 with (2^3); rewrite <- (land_mask_mod _ 3) by lia; change (2^3-1) with 7).
  all: bitwise 16.
  all: bnd.
Qed.

Lemma pack3_length : forall c, length (pack3 c) = 3%nat. Proof. reflexivity. Qed.

(** Message codec *)
Lemma pack_msg_unpack_msg_shape : forall cs, length cs = 8%nat ->
  pack_msg cs =
  [ 0 .| shl8 (u8 (at_ cs 0)) 0 .| shl8 (u8 (at_ cs 1)) 1 .| shl8 (u8 (at_ cs 2)) 2
      .| shl8 (u8 (at_ cs 3)) 3 .| shl8 (u8 (at_ cs 4)) 4 .| shl8 (u8 (at_ cs 5)) 5
      .| shl8 (u8 (at_ cs 6)) 6 .| shl8 (u8 (at_ cs 7)) 7 ].
Proof. intros. reflexivity. Qed.

(** Bits of a byte, least significant first. *)
Definition byte_bits (b : Z) : list Z := map (fun i => Z.b2z (Z.testbit b (Z.of_nat i))) (seq 0 8).

Lemma unpack_msg_bits : forall b, unpack_msg b = map (fun x => 512 * x) (byte_bits b).
Proof.
  intro b. unfold unpack_msg, byte_bits. rewrite map_map. apply map_ext. intro i.
  unfold shl16, MSG2POL_CONST. rewrite Z.shiftl_mul_pow2 by lia. change (2^9) with 512.
  assert (E : (b >> Z.of_nat i) .& 1 = Z.b2z (Z.testbit b (Z.of_nat i))).
  { change 1 with (2^1-1). rewrite land_mask_mod by lia. change (2^1) with 2.
    rewrite Z.shiftr_div_pow2 by lia. symmetry. apply Z.testbit_spec'. lia. }
  rewrite E. rewrite u16_id; [lia|]. unfold is_u16.
  destruct (Z.testbit b (Z.of_nat i)); cbn; lia.
Qed.

(** A decidable statement about bytes is settled by all 256 of them. *)
Lemma byte_forall : forall (Q : Z -> bool),
  forallb Q (map Z.of_nat (seq 0 256)) = true -> forall b, is_byte b -> Q b = true.
Proof.
  intros Q H b Hb. rewrite forallb_forall in H. apply H. apply in_map_iff.
  exists (Z.to_nat b). unfold is_byte in Hb. split; [lia|]. apply in_seq. lia.
Qed.

(** The byte whose bits are the given eight bits. *)
Lemma pack_msg_byte_bits : forall b, is_byte b -> pack_msg (byte_bits b) = [b].
Proof.
  intros b Hb. apply beq_spec.
  apply (byte_forall (fun b => beq (pack_msg (byte_bits b)) [b])); [|exact Hb].
  vm_compute. reflexivity.
Qed.
