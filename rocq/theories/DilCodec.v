(** * DilCodec: the Dilithium2 bit packers are inverse to each other. *)
From Coq Require Import ZArith List Lia Bool.
From Verif Require Import Base Bits SaberPoly SaberCodec SaberRing DilArith DilNtt DilPoly DilPack.
Import ListNotations.
Open Scope Z_scope.

(** ** Chunks *)
Definition below (b x : Z) : Prop := 0 <= x < 2 ^ b.

Ltac bnd2 := bnd;
  try (rewrite Z.shiftr_div_pow2 by lia;
       split; [apply Z.div_pos; lia | apply Z.div_lt_upper_bound; lia]).

Lemma eta_un_pack : forall c, length c = 8%nat -> Forall (below 3) c -> eta_unpack8 (eta_pack8 c) = c.
Proof.
  intros c H Hc. destr_list c H. unfold below in Hc. inv_forall.
  cbv [eta_unpack8 eta_pack8 at_ nth]. per_elem.
  all: bitwise 3.
  all: bnd2.
Qed.
Lemma eta_pack_un : forall b, length b = 3%nat -> is_bytes b -> eta_pack8 (eta_unpack8 b) = b.
Proof.
  intros b H Hb. destr_list b H. unfold is_bytes in Hb. inv_forall.
  cbv [eta_unpack8 eta_pack8 at_ nth]. per_elem.
  all: bitwise 8.
  all: bnd2.
Qed.
Lemma t1_un_pack : forall c, length c = 4%nat -> Forall (below 10) c -> t1_unpack4 (t1_pack4 c) = c.
Proof.
  intros c H Hc. destr_list c H. unfold below in Hc. inv_forall.
  cbv [t1_unpack4 t1_pack4 at_ nth]. per_elem.
  all: bitwise 10.
  all: bnd2.
Qed.
Lemma t1_pack_un : forall b, length b = 5%nat -> is_bytes b -> t1_pack4 (t1_unpack4 b) = b.
Proof.
  intros b H Hb. destr_list b H. unfold is_bytes in Hb. inv_forall.
  cbv [t1_unpack4 t1_pack4 at_ nth]. per_elem.
  all: bitwise 8.
  all: bnd2.
Qed.
Lemma t0_un_pack : forall c, length c = 8%nat -> Forall (below 13) c -> t0_unpack8 (t0_pack8 c) = c.
Proof.
  intros c H Hc. destr_list c H. unfold below in Hc. inv_forall.
  cbv [t0_unpack8 t0_pack8 at_ nth]. per_elem.
  all: bitwise 13.
  all: bnd2.
Qed.
Lemma t0_pack_un : forall b, length b = 13%nat -> is_bytes b -> t0_pack8 (t0_unpack8 b) = b.
Proof.
  intros b H Hb. destr_list b H. unfold is_bytes in Hb. inv_forall.
  cbv [t0_unpack8 t0_pack8 at_ nth]. per_elem.
  all: bitwise 8.
  all: bnd2.
Qed.
Lemma z_un_pack : forall c, length c = 4%nat -> Forall (below 18) c -> z_unpack4 (z_pack4 c) = c.
Proof.
  intros c H Hc. destr_list c H. unfold below in Hc. inv_forall.
  cbv [z_unpack4 z_pack4 at_ nth]. per_elem.
  all: bitwise 18.
  all: bnd2.
Qed.
Lemma z_pack_un : forall b, length b = 9%nat -> is_bytes b -> z_pack4 (z_unpack4 b) = b.
Proof.
  intros b H Hb. destr_list b H. unfold is_bytes in Hb. inv_forall.
  cbv [z_unpack4 z_pack4 at_ nth]. per_elem.
  all: bitwise 8.
  all: bnd2.
Qed.
(** Four 6-bit values from 3 bytes; only a specification device (the code never unpacks w1). *)
Definition w1_read4 (a : bytes) : list Z :=
  [ at_ a 0 .& 63; (at_ a 0 >> 6 .| Z.shiftl (at_ a 1) 2) .& 63;
    (at_ a 1 >> 4 .| Z.shiftl (at_ a 2) 4) .& 63; (at_ a 2 >> 2) .& 63 ].
Lemma w1_read_pack : forall c, length c = 4%nat -> Forall (below 6) c -> w1_read4 (w1_pack4 c) = c.
Proof.
  intros c H Hc. destr_list c H. unfold below in Hc. inv_forall.
  cbv [w1_read4 w1_pack4 at_ nth]. per_elem.
  all: bitwise 6.
  all: bnd2.
Qed.
