(** * A64T1: asm_10_to_32 of __asm_poly.S, which unpacks the public vector t1. *)
From Coq Require Import ZArith List Lia Bool.
From Verif Require Import Base Bits SaberPoly SaberCodec SaberCodec2 DilArith DilPoly DilPack DilCodec DilCodec2 A64Machine.
Import ListNotations.
Open Scope Z_scope.

(** The instructions of __asm_poly.S 40-97; register numbers are those of the listing.
    [LDW]: ldr w2, [x1], #4.  [UBFX d n k]: ubfx wd, w2, #n, #k.  [STW d]: str wd, [x0], #4.
    [LSR6 n]: lsr w6, w2, #n.  [LSL3 n]: lsl w3, w3, #n.  [ORR3]: orr w3, w3, w6. *)
Inductive b10 : Type := LDW | UBFX (d n k : nat) | STW (d : nat) | LSR6 (n : nat) | LSL3 (n : nat) | ORR3.
(** Registers w0 .. w7 (those that hold data), the bytes not yet read, the words written. *)
Record b10_state := { b_w : list Z; b_in : bytes; b_out : list Z }.
Definition setw (s : b10_state) (d : nat) (v : Z) : b10_state := {| b_w := upd (b_w s) d v; b_in := b_in s; b_out := b_out s |}.
(** Four bytes, least significant first. *)
Definition le32 (x0 x1 x2 x3 : Z) : Z := Z.lor (Z.lor (Z.lor x0 (Z.shiftl x1 8)) (Z.shiftl x2 16)) (Z.shiftl x3 24).
(** One instruction; a load past the end of the input is [None]. *)
Definition b10_step (s : option b10_state) (i : b10) : option b10_state :=
  match s with
  | None => None
  | Some s =>
      match i with
      | LDW => match b_in s with
               | x0 :: x1 :: x2 :: x3 :: r =>
                   Some {| b_w := upd (b_w s) 2 (le32 x0 x1 x2 x3);
                           b_in := r; b_out := b_out s |}
               | _ => None
               end
      | UBFX d n k => Some (setw s d (Z.land (Z.shiftr (at_ (b_w s) 2) (Z.of_nat n)) (2 ^ Z.of_nat k - 1)))
      | STW d => Some {| b_w := b_w s; b_in := b_in s; b_out := b_out s ++ [at_ (b_w s) d] |}
      | LSR6 n => Some (setw s 6 (Z.shiftr (at_ (b_w s) 2) (Z.of_nat n)))
      | LSL3 n => Some (setw s 3 (Z.land (Z.shiftl (at_ (b_w s) 3) (Z.of_nat n)) 4294967295))
      | ORR3 => Some (setw s 3 (Z.lor (at_ (b_w s) 3) (at_ (b_w s) 6)))
      end
  end.
(** __asm_poly.S 43-97: the body of the loop. *)
Definition t1_body : list b10 :=
  [ LDW; UBFX 3 0 10; STW 3; UBFX 4 10 10; STW 4; UBFX 5 20 10; STW 5; LSR6 30;
    LDW; UBFX 3 0 8; LSL3 2; ORR3; STW 3; UBFX 4 8 10; STW 4; UBFX 5 18 10; STW 5; LSR6 28;
    LDW; UBFX 3 0 6; LSL3 4; ORR3; STW 3; UBFX 4 6 10; STW 4; UBFX 5 16 10; STW 5; LSR6 26;
    LDW; UBFX 3 0 4; LSL3 6; ORR3; STW 3; UBFX 4 4 10; STW 4; UBFX 5 14 10; STW 5; LSR6 24;
    LDW; UBFX 3 0 2; LSL3 8; ORR3; STW 3; UBFX 4 2 10; STW 4; UBFX 5 12 10; STW 5; UBFX 6 22 10; STW 6 ]%nat.
(** __asm_poly.S 40, 99-102 and poly.c 733-737: sixteen rounds. *)
Definition polyt1_unpack64 (w : list Z) (b : bytes) : option poly :=
  match fold_left b10_step (concat (repeat t1_body 16)) (Some {| b_w := w; b_in := b; b_out := [] |}) with
  | Some s => Some (b_out s)
  | None => None
  end.

Lemma b10_eq : forall w w' i i' o o', w = w' -> i = i' -> o = o' ->
  Some {| b_w := w; b_in := i; b_out := o |} = Some {| b_w := w'; b_in := i'; b_out := o' |}.
Proof. intros. subst. reflexivity. Qed.
Lemma chunks20 : forall a0 a1 a2 a3 a4 b0 b1 b2 b3 b4 c0 c1 c2 c3 c4 d0 d1 d2 d3 d4 : Z,
  flat_map t1_unpack4 (chunks_exact 5 [a0; a1; a2; a3; a4; b0; b1; b2; b3; b4; c0; c1; c2; c3; c4; d0; d1; d2; d3; d4]) =
  t1_unpack4 [a0; a1; a2; a3; a4] ++ t1_unpack4 [b0; b1; b2; b3; b4] ++ t1_unpack4 [c0; c1; c2; c3; c4] ++ t1_unpack4 [d0; d1; d2; d3; d4].
Proof. intros. reflexivity. Qed.
Definition with_out (o : list Z) (s : b10_state) : b10_state := {| b_w := b_w s; b_in := b_in s; b_out := o ++ b_out s |}.
Lemma run_out : forall p o s, fold_left b10_step p (option_map (with_out o) s) = option_map (with_out o) (fold_left b10_step p s).
Proof.
  induction p as [|i p IH]; intros o s; cbn [fold_left]; [reflexivity|]. rewrite <- IH. f_equal.
  destruct s as [[w x out]|]; [|reflexivity]. destruct i; cbn; try reflexivity.
  - destruct x as [|? [|? [|? [|? ?]]]]; reflexivity.
  - unfold with_out. cbn. rewrite app_assoc. reflexivity.
Qed.
Lemma mask10 : forall x, 0 <= Z.land x 1023 < 2 ^ 10.
Proof. intro x. change 1023 with (Z.ones 10). rewrite Z.land_ones by lia. apply Z.mod_pos_bound. reflexivity. Qed.
Lemma mask_shift : forall x k n, 0 <= n -> 0 <= k -> k + n <= 10 -> 0 <= Z.land (Z.shiftl (Z.land x (Z.ones k)) n) 4294967295 < 2 ^ 10.
Proof.
  intros x k n Hn Hk H. rewrite Z.shiftl_mul_pow2 by lia. rewrite (Z.land_ones x) by lia.
  pose proof (Z.mod_pos_bound x (2 ^ k) ltac:(apply Z.pow_pos_nonneg; lia)) as B.
  pose proof (Z.pow_pos_nonneg 2 n ltac:(lia) Hn). assert (P : 2 ^ k * 2 ^ n <= 2 ^ 10) by (rewrite <- Z.pow_add_r by lia; apply Z.pow_le_mono_r; lia).
  assert (0 <= x mod 2 ^ k * 2 ^ n < 2 ^ 10) by nia. change 4294967295 with (Z.ones 32). rewrite Z.land_ones by lia.
  change (2 ^ 10) with 1024 in *. change (2 ^ 32) with 4294967296. rewrite (Z.mod_small (x mod 2 ^ k * 2 ^ n) 4294967296) by lia. assumption.
Qed.
Lemma le32_range : forall x0 x1 x2 x3, is_byte x0 -> is_byte x1 -> is_byte x2 -> is_byte x3 -> 0 <= le32 x0 x1 x2 x3 < 2 ^ 32.
Proof.
  intros x0 x1 x2 x3 H0 H1 H2 H3. unfold is_byte, le32 in *.
  repeat (apply lor_bound; [lia| |]); rewrite ?Z.shiftl_mul_pow2 by lia; lia.
Qed.
Lemma word_shr : forall w k, 0 <= w < 2 ^ 32 -> 22 <= k -> 0 <= Z.shiftr w k < 2 ^ 10.
Proof.
  intros w k H Hk. rewrite Z.shiftr_div_pow2 by lia. pose proof (Z.pow_le_mono_r 2 22 k ltac:(lia) Hk).
  split; [apply Z.div_pos; lia|apply Z.div_lt_upper_bound; [lia|]]. change (2 ^ 32) with 4294967296 in H. change (2 ^ 10) with 1024. change (2 ^ 22) with 4194304 in *. lia.
Qed.
Ltac bitwise10 :=
  apply (bits_eq_below 10); [lia| | |
    let n := fresh "n" in let Hn := fresh "Hn" in intros n Hn; unfold le32;
    enum n 10; simpl_bits; const_bits; bool_simpl; high_bits; const_bits; bool_simpl; try reflexivity;
    try (repeat match goal with |- context [Z.testbit ?x ?j] => destruct (Z.testbit x j) end; reflexivity) ];
  first [ apply mask10 | apply lor_bound; [lia| first [apply (mask_shift _ 8 2); lia | apply (mask_shift _ 6 4); lia | apply (mask_shift _ 4 6); lia | apply (mask_shift _ 2 8); lia]
                                              | apply word_shr; [apply le32_range; assumption|lia]] ].
Lemma t1_round0 : forall w x r, length w = 8%nat -> length x = 20%nat -> is_bytes x ->
  exists w', length w' = 8%nat /\
  fold_left b10_step t1_body (Some {| b_w := w; b_in := x ++ r; b_out := [] |}) =
  Some {| b_w := w'; b_in := r; b_out := flat_map t1_unpack4 (chunks_exact 5 x) |}.
Proof.
  intros w x r Lw L H.
  do 8 (destruct w as [|? w]; [discriminate Lw|]). destruct w; [|discriminate Lw].
  do 20 (destruct x as [|? x]; [discriminate L|]). destruct x; [|discriminate L]. unfold is_bytes in H. inv_forall.
  rewrite chunks20. clear L Lw.
  eexists. split; [|cbv [fold_left b10_step app b_in b_w b_out setw upd at_ nth t1_body Z.of_nat Pos.of_succ_nat Pos.succ t1_unpack4]; apply b10_eq; [reflexivity|reflexivity|]].
  - reflexivity.
  - change (2 ^ 10 - 1) with 1023. change (2 ^ 8 - 1) with 255. change (2 ^ 6 - 1) with 63. change (2 ^ 4 - 1) with 15. change (2 ^ 2 - 1) with 3.
    repeat (apply (f_equal2 (@cons Z)); [|]); [..|reflexivity].
    all: bitwise10.
Qed.
Lemma t1_round : forall w x o r, length w = 8%nat -> length x = 20%nat -> is_bytes x ->
  exists w', length w' = 8%nat /\
  fold_left b10_step t1_body (Some {| b_w := w; b_in := x ++ r; b_out := o |}) =
  Some {| b_w := w'; b_in := r; b_out := o ++ flat_map t1_unpack4 (chunks_exact 5 x) |}.
Proof.
  intros w x o r Lw L H. destruct (t1_round0 w x r Lw L H) as (w' & Lw' & E). exists w'. split; [exact Lw'|].
  pose proof (run_out t1_body o (Some {| b_w := w; b_in := x ++ r; b_out := [] |})) as G. rewrite E in G.
  cbn [option_map] in G. unfold with_out in G. cbn [b_w b_in b_out] in G. rewrite app_nil_r in G. exact G.
Qed.
Local Opaque t1_body t1_unpack4.
Lemma chunks5_app : forall x r, length x = 20%nat -> flat_map t1_unpack4 (chunks_exact 5 (x ++ r)) =
  flat_map t1_unpack4 (chunks_exact 5 x) ++ flat_map t1_unpack4 (chunks_exact 5 r).
Proof.
  intros x r L. do 20 (destruct x as [|? x]; [discriminate L|]). destruct x; [|discriminate L]. rewrite chunks20.
  assert (C : forall a b c d e l, flat_map t1_unpack4 (chunks_exact 5 (a :: b :: c :: d :: e :: l)) = t1_unpack4 [a; b; c; d; e] ++ flat_map t1_unpack4 (chunks_exact 5 l)).
  { intros a b c d e l. change (a :: b :: c :: d :: e :: l) with ([a; b; c; d; e] ++ l). rewrite chunks_cons by (cbn; lia). reflexivity. }
  cbn [app]. rewrite !C, <- !app_assoc. reflexivity.
Qed.
Lemma t1_rounds : forall n w b o, length w = 8%nat -> length b = (n * 20)%nat -> is_bytes b ->
  exists w', fold_left b10_step (concat (repeat t1_body n)) (Some {| b_w := w; b_in := b; b_out := o |}) =
    Some {| b_w := w'; b_in := []; b_out := o ++ flat_map t1_unpack4 (chunks_exact 5 b) |}.
Proof.
  induction n as [|n IH]; intros w b o Lw L H.
  - destruct b; [|discriminate L]. exists w. cbn. rewrite app_nil_r. reflexivity.
  - assert (S : b = firstn 20 b ++ skipn 20 b) by (symmetry; apply firstn_skipn).
    assert (L1 : length (firstn 20 b) = 20%nat) by (rewrite firstn_length; lia).
    assert (L2 : length (skipn 20 b) = (n * 20)%nat) by (rewrite skipn_length; lia).
    rewrite S in H. unfold is_bytes in H. apply Forall_app in H. destruct H as [H1 H2].
    rewrite S. clear S L. set (r := skipn 20 b) in *. set (x := firstn 20 b) in *. clearbody r x.
    cbn [repeat concat]. rewrite fold_left_app. destruct (t1_round w x o r Lw L1 H1) as (w1 & Lw1 & ->).
    destruct (IH w1 r (o ++ flat_map t1_unpack4 (chunks_exact 5 x)) Lw1 L2 H2) as (w' & ->). exists w'.
    rewrite chunks5_app by exact L1. rewrite app_assoc. reflexivity.
Qed.
(** The assembly routine computes the portable [polyt1_unpack] on every 320 bytes, whatever the
    registers held, and reads exactly those bytes. *)
Theorem polyt1_unpack64_ok : forall w b, length w = 8%nat -> length b = 320%nat -> is_bytes b ->
  polyt1_unpack64 w b = Some (polyt1_unpack b).
Proof.
  intros w b Lw L H. unfold polyt1_unpack64. destruct (t1_rounds 16 w b [] Lw L H) as (w' & ->). reflexivity.
Qed.
