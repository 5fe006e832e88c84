(** * SaberCodec: the packers and unpackers of poly.rs are inverse to each other. *)
From Coq Require Import ZArith List Lia Bool.
From Verif Require Import Base Bits SaberPoly.
Import ListNotations.
Open Scope Z_scope.

Ltac destr_list c H :=
  repeat (destruct c as [|? c]; cbn [length] in H; [discriminate H|]);
  destruct c; cbn [length] in H; [clear H|discriminate H].

Ltac high_bits :=
  repeat match goal with
  | H : is_byte ?x |- context [Z.testbit ?x ?k] =>
      rewrite (testbit_high x 8 k) by (unfold is_byte in H; change (2^8) with 256; lia)
  | H : is_u16 ?x |- context [Z.testbit ?x ?k] =>
      rewrite (testbit_high x 16 k) by (unfold is_u16 in H; change (2^16) with 65536; lia)
  | H : 0 <= ?x < 2 ^ ?b |- context [Z.testbit ?x ?k] =>
      rewrite (testbit_high x b k) by (try exact H; lia)
  end.

(** Solve [e = x] for words of at most [k] bits by comparing each bit. *)
Ltac bitwise k :=
  apply (bits_eq_below k); [lia| | |
    let n := fresh "n" in let Hn := fresh "Hn" in intros n Hn;
    enum n k; unfold shl16, shl8; simpl_bits; const_bits; bool_simpl; high_bits;
    const_bits; bool_simpl;
    try reflexivity;
    try (repeat match goal with |- context [Z.testbit ?x ?j] => destruct (Z.testbit x j) end;
         reflexivity) ].

Ltac bnd :=
  unfold shl16, shl8;
  repeat first [ apply lor_bound; [lia| |] | apply land_bound; [lia|lia] ];
  try (match goal with
       | |- 0 <= u8 ?x < _ => pose proof (u8_range x); unfold is_byte in *; lia
       | |- 0 <= u16 ?x < _ => pose proof (u16_range x); unfold is_u16 in *; lia
       | H : is_byte ?x |- 0 <= Z.shiftr ?x _ < _ =>
           unfold is_byte in H; rewrite Z.shiftr_div_pow2 by lia;
           split; [apply Z.div_pos; lia | apply Z.div_lt_upper_bound; lia]
       | H : is_byte ?x |- 0 <= ?x < _ => unfold is_byte in H; lia
       | H : is_u16 ?x |- 0 <= ?x < _ => unfold is_u16 in H; lia
       | H : 0 <= ?x < _ |- 0 <= ?x < _ => lia
       end).

Ltac inv_forall :=
  repeat match goal with H : Forall _ (_ :: _) |- _ => inversion H; clear H; subst
                       | H : Forall _ [] |- _ => clear H end.

Ltac per_elem :=
  repeat (apply f_equal2; [|]); try reflexivity.

Lemma unpack13_pack13 : forall c, length c = 8%nat ->
  unpack13 (pack13 c) = map (fun x => x mod 8192) c.
Proof.
  intros c H. destr_list c H.
  cbv [unpack13 pack13 at_ nth map]. per_elem.
  all: (rewrite <- (land_mask_mod _ 13) by lia; change (2^13-1) with 8191).
  all: bitwise 16.
  all: bnd.
Qed.

Lemma pack13_unpack13 : forall b, length b = 13%nat -> is_bytes b ->
  pack13 (unpack13 b) = b.
Proof.
  intros b H Hb. destr_list b H. unfold is_bytes in Hb. inv_forall.
  cbv [unpack13 pack13 at_ nth map]. per_elem.
  all: bitwise 8.
  all: bnd.
Qed.

Lemma unpack10_pack10 : forall c, length c = 4%nat ->
  unpack10 (pack10 c) = map (fun x => x mod 1024) c.
Proof.
  intros c H. destr_list c H.
  cbv [unpack10 pack10 at_ nth map]. per_elem.
  all: (rewrite <- (land_mask_mod _ 10) by lia; change (2^10-1) with 1023).
  all: bitwise 16.
  all: bnd.
Qed.

Lemma pack10_unpack10 : forall b, length b = 5%nat -> is_bytes b ->
  pack10 (unpack10 b) = b.
Proof.
  intros b H Hb. destr_list b H. unfold is_bytes in Hb. inv_forall.
  cbv [unpack10 pack10 at_ nth map]. per_elem.
  all: bitwise 8.
  all: bnd.
Qed.

Lemma unpack6_pack6 : forall c, length c = 4%nat ->
  unpack6 (pack6 c) = map (fun x => x mod 64) c.
Proof.
  intros c H. destr_list c H.
  cbv [unpack6 pack6 at_ nth map]. per_elem.
  all: (rewrite <- (land_mask_mod _ 6) by lia; change (2^6-1) with 63).
  all: bitwise 16.
  all: bnd.
  rewrite Z.shiftr_div_pow2 by lia.
  match goal with |- 0 <= ?x / _ < _ => assert (0 <= x < 2^8) by bnd end.
  split; [apply Z.div_pos; lia | apply Z.div_lt_upper_bound; lia].
Qed.

Lemma pack6_unpack6 : forall b, length b = 3%nat -> is_bytes b ->
  pack6 (unpack6 b) = b.
Proof.
  intros b H Hb. destr_list b H. unfold is_bytes in Hb. inv_forall.
  cbv [unpack6 pack6 at_ nth map]. per_elem.
  all: bitwise 8.
  all: bnd.
Qed.

Lemma unpack4_pack4 : forall c, length c = 2%nat ->
  flat_map unpack4 (pack4 c) = map (fun x => x mod 16) c.
Proof.
  intros c H. destr_list c H.
  cbv [unpack4 pack4 at_ nth map flat_map app]. per_elem.
  all: (rewrite <- (land_mask_mod _ 4) by lia; change (2^4-1) with 15).
  all: bitwise 16.
  all: bnd.
  rewrite Z.shiftr_div_pow2 by lia.
  match goal with |- 0 <= ?x / _ < _ => assert (0 <= x < 2^8) by bnd end.
  split; [apply Z.div_pos; lia | apply Z.div_lt_upper_bound; lia].
Qed.

Lemma pack4_unpack4 : forall b, is_byte b -> pack4 (unpack4 b) = [b].
Proof.
  intros b Hb.
  cbv [unpack4 pack4 at_ nth map]. per_elem.
  all: bitwise 8.
  all: bnd.
Qed.

