(** * A64Keccak: the two-way Keccak permutation of the AArch64 build
    (pqclean/crypto_sign/dilithium2/aarch64/fips202x2.c 100-378 and feat.S), and what it computes. *)
From Coq Require Import ZArith List Lia Bool.
From Verif Require Import Base DilArith DilNtt Keccak KeccakSpec KeccakPerm KeccakSponge KeccakX4 KeccakX4Ok.
Import ListNotations.
Open Scope Z_scope.

(** ** The machine *)
(** A 128-bit vector: its two 64-bit lanes, the low one first. *)
Definition v128 : Type := Z * Z.
Definition sel {A} (j : bool) (p : A * A) : A := if j then snd p else fst p.
(** The instructions used, by destination, sources and immediate.  The intrinsics veorq, vshlq_n,
    vsriq_n, vbicq, vdupq_n of fips202x2.c are Eor, Shl, Sri, Bic, Dup; feat.S uses Eor, Mov, ld1r
    (Dup) and the SHA3 extension Eor3, Rax1, Xar, Bcax.  [Dup d k] fetches the k-th constant the pass
    of the loop refers to. *)
Inductive op :=
| Eor (d a b : nat) | Eor3 (d a b c : nat) | Rax1 (d a b : nat) | Xar (d a b k : nat) | Bcax (d a b c : nat)
| Mov (d a : nat) | Shl (d a k : nat) | Sri (d a k : nat) | Bic (d a b : nat) | Dup (d k : nat).
(** Rotation to the right by k, as the instruction reference has it. *)
Definition ROR (a k : Z) : Z := Z.lor (Z.shiftr a k) (u64 (Z.shiftl a (64 - k))).
(** What an instruction does in one lane, given the destination and the sources. *)
Definition sri64 (d a k : Z) : Z := Z.lor (Z.land d (not64 (Z.shiftr (2 ^ 64 - 1) k))) (Z.shiftr a k).
Definition lop (c : list Z) (s : list Z) (i : op) : list Z :=
  let r n := nth n s 0 in
  match i with
  | Eor d a b => put s d (Z.lxor (r a) (r b))
  | Eor3 d a b c => put s d (Z.lxor (Z.lxor (r a) (r b)) (r c))
  | Rax1 d a b => put s d (Z.lxor (r a) (ROL (r b) 1))
  | Xar d a b k => put s d (ROR (Z.lxor (r a) (r b)) (Z.of_nat k))
  | Bcax d a b c => put s d (Z.lxor (r a) (Z.land (r b) (not64 (r c))))
  | Mov d a => put s d (r a)
  | Shl d a k => put s d (u64 (Z.shiftl (r a) (Z.of_nat k)))
  | Sri d a k => put s d (sri64 (r d) (r a) (Z.of_nat k))
  | Bic d a b => put s d (Z.land (r a) (not64 (r b)))
  | Dup d k => put s d (nth k c 0)
  end.
(** All instructions work lane by lane. *)
Definition lane2 (j : bool) (s : list v128) : list Z := map (sel j) s.
Definition vop (c : list Z) (s : list v128) (i : op) : list v128 := combine (lop c (lane2 false s) i) (lop c (lane2 true s) i).
Definition vops (c : list Z) (l : list op) (s : list v128) : list v128 := fold_left (vop c) l s.

(** ** The programs *)
(** fips202x2.c 149-248 and 250-347.  The local variables are registers: A 0-24, BC 25-29, D 30-34,
    E 35-59 (by rows b g k m s and columns a e i o u), 60 the temporary of vdupq_n_u64. *)
Definition c_round0 : list op :=
  [Eor 25 0 5; Eor 25 25 10; Eor 25 25 15; Eor 25 25 20; Eor 26 1 6; Eor 26 26 11; Eor 26 26 16; Eor 26 26 21;
  Eor 27 2 7; Eor 27 27 12; Eor 27 27 17; Eor 27 27 22; Eor 28 3 8; Eor 28 28 13; Eor 28 28 18; Eor 28 28 23;
  Eor 29 4 9; Eor 29 29 14; Eor 29 29 19; Eor 29 29 24; Shl 30 26 1; Sri 30 26 63; Eor 30 29 30; Shl 31 27 1;
  Sri 31 27 63; Eor 31 25 31; Shl 32 28 1; Sri 32 28 63; Eor 32 26 32; Shl 33 29 1; Sri 33 29 63; Eor 33 27 33;
  Shl 34 25 1; Sri 34 25 63; Eor 34 28 34; Eor 0 0 30; Eor 6 6 31; Shl 26 6 44; Sri 26 6 20; Eor 12 12 32;
  Shl 27 12 43; Sri 27 12 21; Eor 18 18 33; Shl 28 18 21; Sri 28 18 43; Eor 24 24 34; Shl 29 24 14; Sri 29 24 50;
  Bic 35 27 26; Eor 35 35 0; Dup 60 0; Eor 35 35 60; Bic 36 28 27; Eor 36 36 26; Bic 37 29 28; Eor 37 37 27;
  Bic 38 0 29; Eor 38 38 28; Bic 39 26 0; Eor 39 39 29; Eor 3 3 33; Shl 25 3 28; Sri 25 3 36; Eor 9 9 34;
  Shl 26 9 20; Sri 26 9 44; Eor 10 10 30; Shl 27 10 3; Sri 27 10 61; Eor 16 16 31; Shl 28 16 45; Sri 28 16 19;
  Eor 22 22 32; Shl 29 22 61; Sri 29 22 3; Bic 40 27 26; Eor 40 40 25; Bic 41 28 27; Eor 41 41 26; Bic 42 29 28;
  Eor 42 42 27; Bic 43 25 29; Eor 43 43 28; Bic 44 26 25; Eor 44 44 29; Eor 1 1 31; Shl 25 1 1; Sri 25 1 63;
  Eor 7 7 32; Shl 26 7 6; Sri 26 7 58; Eor 13 13 33; Shl 27 13 25; Sri 27 13 39; Eor 19 19 34; Shl 28 19 8;
  Sri 28 19 56; Eor 20 20 30; Shl 29 20 18; Sri 29 20 46; Bic 45 27 26; Eor 45 45 25; Bic 46 28 27; Eor 46 46 26;
  Bic 47 29 28; Eor 47 47 27; Bic 48 25 29; Eor 48 48 28; Bic 49 26 25; Eor 49 49 29; Eor 4 4 34; Shl 25 4 27;
  Sri 25 4 37; Eor 5 5 30; Shl 26 5 36; Sri 26 5 28; Eor 11 11 31; Shl 27 11 10; Sri 27 11 54; Eor 17 17 32;
  Shl 28 17 15; Sri 28 17 49; Eor 23 23 33; Shl 29 23 56; Sri 29 23 8; Bic 50 27 26; Eor 50 50 25; Bic 51 28 27;
  Eor 51 51 26; Bic 52 29 28; Eor 52 52 27; Bic 53 25 29; Eor 53 53 28; Bic 54 26 25; Eor 54 54 29; Eor 2 2 32;
  Shl 25 2 62; Sri 25 2 2; Eor 8 8 33; Shl 26 8 55; Sri 26 8 9; Eor 14 14 34; Shl 27 14 39; Sri 27 14 25;
  Eor 15 15 30; Shl 28 15 41; Sri 28 15 23; Eor 21 21 31; Shl 29 21 2; Sri 29 21 62; Bic 55 27 26; Eor 55 55 25;
  Bic 56 28 27; Eor 56 56 26; Bic 57 29 28; Eor 57 57 27; Bic 58 25 29; Eor 58 58 28; Bic 59 26 25; Eor 59 59 29].
Definition c_round1 : list op :=
  [Eor 25 35 40; Eor 25 25 45; Eor 25 25 50; Eor 25 25 55; Eor 26 36 41; Eor 26 26 46; Eor 26 26 51; Eor 26 26 56;
  Eor 27 37 42; Eor 27 27 47; Eor 27 27 52; Eor 27 27 57; Eor 28 38 43; Eor 28 28 48; Eor 28 28 53; Eor 28 28 58;
  Eor 29 39 44; Eor 29 29 49; Eor 29 29 54; Eor 29 29 59; Shl 30 26 1; Sri 30 26 63; Eor 30 29 30; Shl 31 27 1;
  Sri 31 27 63; Eor 31 25 31; Shl 32 28 1; Sri 32 28 63; Eor 32 26 32; Shl 33 29 1; Sri 33 29 63; Eor 33 27 33;
  Shl 34 25 1; Sri 34 25 63; Eor 34 28 34; Eor 35 35 30; Eor 41 41 31; Shl 26 41 44; Sri 26 41 20; Eor 47 47 32;
  Shl 27 47 43; Sri 27 47 21; Eor 53 53 33; Shl 28 53 21; Sri 28 53 43; Eor 59 59 34; Shl 29 59 14; Sri 29 59 50;
  Bic 0 27 26; Eor 0 0 35; Dup 60 1; Eor 0 0 60; Bic 1 28 27; Eor 1 1 26; Bic 2 29 28; Eor 2 2 27; Bic 3 35 29;
  Eor 3 3 28; Bic 4 26 35; Eor 4 4 29; Eor 38 38 33; Shl 25 38 28; Sri 25 38 36; Eor 44 44 34; Shl 26 44 20;
  Sri 26 44 44; Eor 45 45 30; Shl 27 45 3; Sri 27 45 61; Eor 51 51 31; Shl 28 51 45; Sri 28 51 19; Eor 57 57 32;
  Shl 29 57 61; Sri 29 57 3; Bic 5 27 26; Eor 5 5 25; Bic 6 28 27; Eor 6 6 26; Bic 7 29 28; Eor 7 7 27; Bic 8 25 29;
  Eor 8 8 28; Bic 9 26 25; Eor 9 9 29; Eor 36 36 31; Shl 25 36 1; Sri 25 36 63; Eor 42 42 32; Shl 26 42 6;
  Sri 26 42 58; Eor 48 48 33; Shl 27 48 25; Sri 27 48 39; Eor 54 54 34; Shl 28 54 8; Sri 28 54 56; Eor 55 55 30;
  Shl 29 55 18; Sri 29 55 46; Bic 10 27 26; Eor 10 10 25; Bic 11 28 27; Eor 11 11 26; Bic 12 29 28; Eor 12 12 27;
  Bic 13 25 29; Eor 13 13 28; Bic 14 26 25; Eor 14 14 29; Eor 39 39 34; Shl 25 39 27; Sri 25 39 37; Eor 40 40 30;
  Shl 26 40 36; Sri 26 40 28; Eor 46 46 31; Shl 27 46 10; Sri 27 46 54; Eor 52 52 32; Shl 28 52 15; Sri 28 52 49;
  Eor 58 58 33; Shl 29 58 56; Sri 29 58 8; Bic 15 27 26; Eor 15 15 25; Bic 16 28 27; Eor 16 16 26; Bic 17 29 28;
  Eor 17 17 27; Bic 18 25 29; Eor 18 18 28; Bic 19 26 25; Eor 19 19 29; Eor 37 37 32; Shl 25 37 62; Sri 25 37 2;
  Eor 43 43 33; Shl 26 43 55; Sri 26 43 9; Eor 49 49 34; Shl 27 49 39; Sri 27 49 25; Eor 50 50 30; Shl 28 50 41;
  Sri 28 50 23; Eor 56 56 31; Shl 29 56 2; Sri 29 56 62; Bic 20 27 26; Eor 20 20 25; Bic 21 28 27; Eor 21 21 26;
  Bic 22 29 28; Eor 22 22 27; Bic 23 25 29; Eor 23 23 28; Bic 24 26 25; Eor 24 24 29].
(** feat.S 29-123: the macro; register n is v[n]. *)
Definition s_round : list op :=
  [Eor3 25 0 5 10; Eor3 26 1 6 11; Eor3 27 2 7 12; Eor3 28 3 8 13; Eor3 29 4 9 14; Eor3 25 25 15 20; Eor3 26 26 16 21;
  Eor3 27 27 17 22; Eor3 28 28 18 23; Eor3 29 29 19 24; Rax1 30 29 26; Rax1 29 27 29; Rax1 27 25 27; Rax1 25 28 25;
  Rax1 28 26 28; Eor 0 0 30; Mov 31 1; Xar 1 6 27 20; Xar 6 9 25 44; Xar 9 22 28 3; Xar 22 14 25 25; Xar 14 20 30 46;
  Xar 20 2 28 2; Xar 2 12 28 21; Xar 12 13 29 39; Xar 13 19 25 56; Xar 19 23 29 8; Xar 23 15 30 23; Xar 15 4 25 37;
  Xar 4 24 25 50; Xar 24 21 27 62; Xar 21 8 29 9; Xar 8 16 27 19; Xar 16 5 30 28; Xar 5 3 29 36; Xar 3 18 29 43;
  Xar 18 17 28 49; Xar 17 11 27 54; Xar 11 7 28 58; Xar 7 10 30 61; Xar 10 31 27 63; Bcax 25 0 2 1; Bcax 26 1 3 2;
  Bcax 2 2 4 3; Bcax 3 3 0 4; Bcax 4 4 1 0; Mov 0 25; Mov 1 26; Bcax 25 5 7 6; Bcax 26 6 8 7; Bcax 7 7 9 8;
  Bcax 8 8 5 9; Bcax 9 9 6 5; Mov 5 25; Mov 6 26; Bcax 25 10 12 11; Bcax 26 11 13 12; Bcax 12 12 14 13;
  Bcax 13 13 10 14; Bcax 14 14 11 10; Mov 10 25; Mov 11 26; Bcax 25 15 17 16; Bcax 26 16 18 17; Bcax 17 17 19 18;
  Bcax 18 18 15 19; Bcax 19 19 16 15; Mov 15 25; Mov 16 26; Bcax 25 20 22 21; Bcax 26 21 23 22; Bcax 22 22 24 23;
  Bcax 23 23 20 24; Bcax 24 24 21 20; Mov 20 25; Mov 21 26; Dup 25 0; Eor 0 0 25].
(** fips202x2.c 72-97. *)
Definition neon_RoundConstants : list Z :=
  [1; 32898; 9223372036854808714; 9223372039002292224; 32907; 2147483649; 9223372039002292353; 9223372036854808585; 138; 136; 2147516425; 2147483658; 2147516555; 9223372036854775947; 9223372036854808713; 9223372036854808579; 9223372036854808578; 9223372036854775936; 32778; 9223372039002259466; 9223372039002292353; 9223372036854808704; 2147483649; 9223372039002292232].
(** fips202x2.c 148: for (round = 0; round < NROUNDS; round += 2), n passes of a body that uses the
    constants of round and round + 1. *)
Fixpoint loop_by2 {S} (body : Z -> Z -> S -> S) (n : nat) (rc : list Z) (s : S) : crun S :=
  match n with
  | O => CRet s
  | Datatypes.S n' => match rc with c0 :: c1 :: rc' => loop_by2 body n' rc' (body c0 c1 s) | _ => CUB end
  end.
Definition c_loop : nat -> list Z -> list v128 -> crun (list v128) :=
  loop_by2 (fun c0 c1 s => vops [c0; c1] c_round1 (vops [c0; c1] c_round0 s)).
(** feat.S 145-149. *)
Fixpoint loop_by1 {S} (body : Z -> S -> S) (n : nat) (rc : list Z) (s : S) : crun S :=
  match n with
  | O => CRet s
  | Datatypes.S n' => match rc with c0 :: rc' => loop_by1 body n' rc' (body c0 s) | _ => CUB end
  end.
Definition s_loop : nat -> list Z -> list v128 -> crun (list v128) := loop_by1 (fun c0 s => vops [c0] s_round s).
(** The two builds, and what the other registers (or local variables) hold on entry. *)
Record build := Build { b_sha3 : bool; b_junk : list v128 }.
(** fips202x2.c 107-378 and feat.S 125-167. *)
Definition StatePermutex2 (b : build) (s : list v128) : crun (list v128) :=
  if b_sha3 b then
    do s <- s_loop 24 neon_RoundConstants (firstn 25 s ++ firstn 7 (b_junk b)) ;; CRet (firstn 25 s)
  else
    do s <- c_loop 12 neon_RoundConstants (firstn 25 s ++ firstn 36 (b_junk b)) ;; CRet (firstn 25 s).

(** ** Symbolic values *)
Definition sy (s : list ex) (n : nat) : ex := nth n s Ze.
Definition s_sri (d a : ex) (k : nat) : option ex :=
  match d with
  | Sl l x => if ((k + l =? 64) && (0 <? l) && (l <? 64))%nat%bool && KeccakX4Ok.same x a then Some (Ro l x) else None
  | _ => None
  end.
Definition symop (nc : nat) (s : list ex) (i : op) : option (list ex) :=
  match i with
  | Eor d a b => Some (put s d (s_xor (sy s a) (sy s b)))
  | Eor3 d a b c => Some (put s d (s_xor (s_xor (sy s a) (sy s b)) (sy s c)))
  | Rax1 d a b => Some (put s d (s_xor (sy s a) (Ro 1 (sy s b))))
  | Xar d a b k => if ((0 <? k) && (k <? 64))%nat%bool then Some (put s d (Ro (64 - k) (s_xor (sy s a) (sy s b)))) else None
  | Bcax d a b c => Some (put s d (s_xor (sy s a) (An (sy s c) (sy s b))))
  | Mov d a => Some (put s d (sy s a))
  | Shl d a k => Some (put s d (Sl k (sy s a)))
  | Sri d a k => match s_sri (sy s d) (sy s a) k with Some v => Some (put s d v) | None => None end
  | Bic d a b => Some (put s d (An (sy s b) (sy s a)))
  | Dup d k => if (k <? nc)%nat then Some (put s d (Cc k)) else None
  end.
Fixpoint symops (nc : nat) (l : list op) (s : list ex) : option (list ex) :=
  match l with [] => Some s | i :: l' => match symop nc s i with Some s' => symops nc l' s' | None => None end end.

(** ** Lanes *)
Lemma lane2_length : forall j s, length (lane2 j s) = length s. Proof. intros. apply map_length. Qed.
Lemma lop_length : forall c s i, length (lop c s i) = length s.
Proof. intros c s i. destruct i; cbn [lop]; apply put_length. Qed.
Lemma lane_combine : forall (a b : list Z) j, length a = length b -> lane2 j (combine a b) = if j then b else a.
Proof.
  intros a. induction a as [|x a IH]; intros [|y b] j L; try discriminate L; [destruct j; reflexivity|].
  unfold lane2 in *. cbn [combine map]. rewrite IH by (cbn in L; lia). destruct j; reflexivity.
Qed.
Lemma lane_vop : forall c s i j, lane2 j (vop c s i) = lop c (lane2 j s) i.
Proof. intros c s i j. unfold vop. rewrite lane_combine by (rewrite !lop_length, !lane2_length; reflexivity). destruct j; reflexivity. Qed.
Lemma vop_length : forall c s i, length (vop c s i) = length s.
Proof. intros. rewrite <- (lane2_length false), lane_vop, lop_length. apply lane2_length. Qed.
Lemma vops_length : forall c l s, length (vops c l s) = length s.
Proof. intros c l. unfold vops. induction l as [|i l IH]; intro s; [reflexivity|]. cbn [fold_left]. rewrite IH. apply vop_length. Qed.
Lemma lane_vops : forall c l s j, lane2 j (vops c l s) = fold_left (lop c) l (lane2 j s).
Proof. intros c l. unfold vops. induction l as [|i l IH]; intros s j; [reflexivity|]. cbn [fold_left]. rewrite IH, lane_vop. reflexivity. Qed.

(** ** Soundness of the symbolic run *)
Lemma ror_rol : forall a k, w64 a -> (0 < k < 64)%nat -> ROR a (Z.of_nat k) = ROL a (Z.of_nat (64 - k)).
Proof.
  intros a k W K. rewrite <- (lor_ROL a (Z.of_nat (64 - k))) by (assumption || lia). unfold ROR.
  replace (64 - Z.of_nat (64 - k)) with (Z.of_nat k) by lia. replace (Z.of_nat (64 - k)) with (64 - Z.of_nat k) by lia. reflexivity.
Qed.
Lemma sri_rol : forall a k l, w64 a -> (0 < l < 64)%nat -> (k + l = 64)%nat ->
  sri64 (u64 (Z.shiftl a (Z.of_nat l))) a (Z.of_nat k) = ROL a (Z.of_nat l).
Proof.
  intros a k l W L E. rewrite <- (lor_ROL a (Z.of_nat l)) by (assumption || lia). unfold sri64. rewrite Z.lor_comm.
  replace (64 - Z.of_nat l) with (Z.of_nat k) by lia. f_equal. apply Z.bits_inj'. intros i I. rewrite Z.land_spec.
  destruct (Z.ltb_spec i 64) as [H|H].
  - unfold not64, u64. change 18446744073709551616 with (2 ^ 64). rewrite !Z.mod_pow2_bits_low by lia.
    rewrite Z.lnot_spec by lia. rewrite Z.shiftr_spec by lia. rewrite Z.shiftl_spec by lia.
    replace (2 ^ 64 - 1) with (Z.ones 64) by reflexivity. rewrite Z.testbit_ones_nonneg by lia.
    destruct (Z.ltb_spec (i + Z.of_nat k) 64) as [H'|H']; cbn [negb].
    + rewrite andb_false_r. symmetry. apply Z.testbit_neg_r. lia.
    + apply andb_true_r.
  - unfold u64. change 18446744073709551616 with (2 ^ 64). rewrite !(Z.mod_pow2_bits_high _ 64) by lia. reflexivity.
Qed.
Section Sim.
Variable env : nat -> Z.
Variable rc : list Z.
Hypothesis env_w : forall n, w64 (env n).
Hypothesis rc_w64 : Forall w64 rc.
Local Notation dn := (den env rc 0).
Definition rel (s : list Z) (t : list ex) : Prop := s = map dn t.
Lemma map_put : forall t d e, map dn (put t d e) = put (map dn t) d (dn e).
Proof. induction t as [|h t IH]; intros [|d] e; cbn [put map]; try reflexivity. rewrite IH. reflexivity. Qed.
Lemma rel_nth : forall s t n, rel s t -> nth n s 0 = dn (sy t n).
Proof. intros s t n ->. unfold sy. change 0 with (dn Ze). apply map_nth. Qed.
Lemma dnw : forall e, w64 (dn e). Proof. intro e. apply den_w; assumption. Qed.
Lemma symop_ok : forall nc s t t' i, rel s t -> symop nc t i = Some t' -> rel (lop rc s i) t'.
Proof.
  intros nc s t t' i R H. unfold rel.
  destruct i; cbn [symop lop] in *; cbv zeta; rewrite ?(rel_nth s t _ R).
  - injection H as <-. rewrite map_put, den_xor, R. reflexivity.
  - injection H as <-. rewrite map_put, !den_xor, R. reflexivity.
  - injection H as <-. rewrite map_put, den_xor, R. reflexivity.
  - destruct ((0 <? k) && (k <? 64))%nat%bool eqn:K; [|discriminate H]. apply andb_prop in K. destruct K as [K1 K2].
    apply Nat.ltb_lt in K1. apply Nat.ltb_lt in K2. injection H as <-. rewrite map_put. cbn [den]. rewrite den_xor, R.
    rewrite ror_rol by (lia || (apply lxor_w; apply dnw)). rewrite (Z.mod_small (Z.of_nat (64 - k))) by lia. reflexivity.
  - injection H as <-. rewrite map_put, den_xor, R. cbn [den]. rewrite (Z.land_comm (not64 _)). reflexivity.
  - injection H as <-. rewrite map_put, R. reflexivity.
  - injection H as <-. rewrite map_put, R. reflexivity.
  - destruct (s_sri (sy t d) (sy t a) k) as [v|] eqn:E; [|discriminate H]. injection H as <-. rewrite map_put, R. f_equal.
    unfold s_sri in E. destruct (sy t d) as [ | | | | | | |l x| ]; try discriminate E.
    destruct ((k + l =? 64) && (0 <? l) && (l <? 64))%nat%bool eqn:K; [|discriminate E]. cbn [andb] in E.
    destruct (KeccakX4Ok.same x (sy t a)) eqn:Q; [|discriminate E]. apply same_eq in Q. subst x. injection E as <-.
    rewrite !andb_true_iff, Nat.eqb_eq, !Nat.ltb_lt in K. destruct K as [[K1 K2] K3]. cbn [den].
    rewrite sri_rol by (lia || apply dnw). rewrite (Z.mod_small (Z.of_nat l)) by lia. reflexivity.
  - injection H as <-. rewrite map_put, R. cbn [den]. rewrite (Z.land_comm (not64 _)). reflexivity.
  - destruct (k <? nc)%nat; [|discriminate H]. injection H as <-. rewrite map_put, R. reflexivity.
Qed.
Lemma symops_ok : forall nc l s t t', rel s t -> symops nc l t = Some t' -> rel (fold_left (lop rc) l s) t'.
Proof.
  intros nc l. induction l as [|i l IH]; intros s t t' R H; cbn [symops fold_left] in *.
  - injection H as <-. exact R.
  - destruct (symop nc t i) as [t1|] eqn:E; [|discriminate H]. exact (IH _ _ _ (symop_ok nc s t t1 i R E) H).
Qed.
End Sim.

(** ** One round *)
(** Running [l] on n registers turns the state in registers p, p+1, .. into its round in q, q+1, .. *)
Definition round_check2 (n nc c p q : nat) (l : list op) : bool :=
  match symops nc l (map V (seq 0 n)) with
  | Some t => forallb (fun ab => KeccakX4Ok.same (fst ab) (norm (snd ab)))
                (combine (firstn 25 (skipn q t)) (eround c (map V (seq p 25))))
  | None => false
  end.
Lemma c_round0_check : round_check2 61 2 0 0 35 c_round0 = true. Proof. vm_compute. reflexivity. Qed.
Lemma c_round1_check : round_check2 61 2 1 35 0 c_round1 = true. Proof. vm_compute. reflexivity. Qed.
Lemma s_round_check : round_check2 32 1 0 0 0 s_round = true. Proof. vm_compute. reflexivity. Qed.
Lemma eround_den2 : forall c p env rc, map (den env rc 0) (eround c (map V (seq p 25))) = lround (nth c rc 0) (map env (seq p 25)).
Proof.
  intros k p env rc. set (c := nth k rc 0).
  assert (E : forall l, map (den env rc 0) (eround k l) = map (fun i => if (i =? 0)%nat then Z.lxor (den env rc 0 (eX l 0 0)) c else den env rc 0 (eX l (i mod 5) (i / 5))) (seq 0 25)).
  { intro l. unfold eround. rewrite map_map. apply map_ext. intro i. destruct (i =? 0)%nat; reflexivity. }
  rewrite E. clear E. clearbody c. cbv -[Z.lxor Z.land ROL not64]. reflexivity.
Qed.
(** A register file of words. *)
Definition rok (n : nat) (s : list Z) : Prop := length s = n /\ Forall w64 s.
Lemma lop_w : forall c s i, Forall w64 c -> Forall w64 s -> Forall w64 (lop c s i).
Proof.
  intros c s i Hc H.
  assert (N : forall n, w64 (nth n s 0)) by (intro; apply nth_w64, H).
  assert (W1 : w64 (2 ^ 64 - 1)) by (unfold w64; lia).
  destruct i; cbn [lop]; apply put_Forall; auto.
  - apply lxor_w; apply N.
  - apply lxor_w; [apply lxor_w|]; apply N.
  - apply lxor_w; [apply N|apply ROL_w; [lia|apply N]].
  - unfold ROR. assert (X := lxor_w _ _ (N a) (N b)). apply lor_w; [apply shiftr_w; [lia|exact X]|apply u64_w].
  - apply lxor_w; [apply N|]. rewrite Z.land_comm. apply land_w, N.
  - apply u64_w.
  - unfold sri64. apply lor_w; [rewrite Z.land_comm; apply land_w, N|apply shiftr_w; [lia|apply N]].
  - rewrite Z.land_comm. apply land_w, N.
  - apply nth_w64, Hc.
Qed.
Lemma lops_ok : forall c l n s, Forall w64 c -> rok n s -> rok n (fold_left (lop c) l s).
Proof.
  intros c l n. induction l as [|i l IH]; intros s Hc [L F]; [split; assumption|]. cbn [fold_left]. apply IH; [exact Hc|].
  split; [rewrite lop_length; exact L|apply lop_w; assumption].
Qed.
Lemma skipn_seq : forall k n m, skipn k (seq n m) = seq (n + k) (m - k).
Proof.
  induction k as [|k IH]; intros n m; [rewrite Nat.add_0_r, Nat.sub_0_r; reflexivity|]. destruct m as [|m]; [reflexivity|].
  cbn [seq skipn Nat.sub]. rewrite IH. f_equal. lia.
Qed.
Lemma firstn_seq : forall k n m, (k <= m)%nat -> firstn k (seq n m) = seq n k.
Proof.
  induction k as [|k IH]; intros n m H; [reflexivity|]. destruct m as [|m]; [lia|]. cbn [seq firstn]. rewrite IH by lia. reflexivity.
Qed.
Lemma round2_ok : forall n nc c p q l rc s, round_check2 n nc c p q l = true -> rok n s -> Forall w64 rc -> (p + 25 <= n)%nat -> (q + 25 <= n)%nat ->
  firstn 25 (skipn q (fold_left (lop rc) l s)) = lround (nth c rc 0) (firstn 25 (skipn p s)).
Proof.
  intros n nc c p q l rc s C [L F] W P Q. unfold round_check2 in C. destruct (symops nc l (map V (seq 0 n))) as [t|] eqn:E; [|discriminate C].
  set (env := fun i => nth i s 0).
  assert (We : forall i, w64 (env i)) by (intro i; apply nth_w64, F).
  assert (R0 : rel env rc s (map V (seq 0 n))).
  { unfold rel. rewrite map_map. cbn [den]. rewrite <- L. unfold env. apply (nth_ext _ _ 0 0); [rewrite map_length, seq_length; reflexivity|].
    intros i Hi. rewrite (nth_indep (map _ _) 0 (nth 0 s 0)) by (rewrite map_length, seq_length; exact Hi).
    rewrite (map_nth (fun i => nth i s 0)), seq_nth by exact Hi. reflexivity. }
  assert (R := symops_ok env rc We W nc l s _ t R0 E). clear R0 E.
  assert (Lt : length t = n).
  { assert (X := proj1 (lops_ok rc l n s W (conj L F))). rewrite R, map_length in X. exact X. }
  assert (Es : firstn 25 (skipn p s) = map env (seq p 25)).
  { apply (nth_ext _ _ 0 0).
    - rewrite firstn_length, skipn_length, map_length, seq_length. lia.
    - rewrite firstn_length, skipn_length. intros i Hi. rewrite (nth_indep (map env _) 0 (env 0%nat)) by (rewrite map_length, seq_length; lia).
      rewrite map_nth, seq_nth by lia. unfold env. rewrite <- (firstn_skipn p s) at 2. rewrite app_nth2 by (rewrite firstn_length; lia).
      rewrite firstn_length, Nat.min_l by lia. replace (p + i - p)%nat with i by lia.
      rewrite <- (firstn_skipn 25 (skipn p s)) at 2. rewrite app_nth1 by (rewrite firstn_length, skipn_length; lia). reflexivity. }
  rewrite Es, <- eround_den2. unfold rel in R. rewrite R. rewrite skipn_map, firstn_map.
  assert (LL : length (firstn 25 (skipn q t)) = length (eround c (map V (seq p 25)))).
  { unfold eround. rewrite firstn_length, skipn_length, map_length, seq_length. lia. }
  revert LL C. generalize (firstn 25 (skipn q t)), (eround c (map V (seq p 25))). clear.
  intro l1. induction l1 as [|x l1 IH]; intros [|y l2] LL C; try discriminate LL; [reflexivity|].
  cbn [combine forallb fst snd] in C. apply andb_prop in C. destruct C as [C1 C2]. cbn [map]. f_equal.
  - apply same_eq in C1. rewrite C1. apply den_norm.
  - apply IH; [cbn in LL; lia|exact C2].
Qed.

(** ** The loops *)
Local Opaque c_round0 c_round1 s_round lround.
Definition rok2 (n : nat) (s : list v128) : Prop := forall j, rok n (lane2 j s).
Definition st2 (s : list v128) (j : bool) : list Z := firstn 25 (lane2 j s).
Lemma vops_rok : forall c l n s, Forall w64 c -> rok2 n s -> rok2 n (vops c l s).
Proof. intros c l n s Hc H j. rewrite lane_vops. apply lops_ok; [exact Hc|apply H]. Qed.
Lemma c_pass : forall c0 c1 s, w64 c0 -> w64 c1 -> rok2 61 s ->
  rok2 61 (vops [c0; c1] c_round1 (vops [c0; c1] c_round0 s)) /\
  forall j, st2 (vops [c0; c1] c_round1 (vops [c0; c1] c_round0 s)) j = lround c1 (lround c0 (st2 s j)).
Proof.
  intros c0 c1 s W0 W1 H. assert (W : Forall w64 [c0; c1]) by (apply Forall_cons; [exact W0|apply Forall_cons; [exact W1|apply Forall_nil]]).
  split; [apply vops_rok; [exact W|apply vops_rok; assumption]|]. intro j. unfold st2. rewrite !lane_vops.
  change (firstn 25 (fold_left (lop [c0; c1]) c_round1 (fold_left (lop [c0; c1]) c_round0 (lane2 j s))))
    with (firstn 25 (skipn 0 (fold_left (lop [c0; c1]) c_round1 (fold_left (lop [c0; c1]) c_round0 (lane2 j s))))).
  assert (R0 := H j). assert (R1 := lops_ok [c0; c1] c_round0 61 _ W R0).
  rewrite (round2_ok 61 2 1 35 0 c_round1 [c0; c1] _ c_round1_check R1 W) by lia.
  rewrite (round2_ok 61 2 0 0 35 c_round0 [c0; c1] _ c_round0_check R0 W) by lia. reflexivity.
Qed.
Lemma s_pass : forall c0 s, w64 c0 -> rok2 32 s ->
  rok2 32 (vops [c0] s_round s) /\ forall j, st2 (vops [c0] s_round s) j = lround c0 (st2 s j).
Proof.
  intros c0 s W0 H. assert (W : Forall w64 [c0]) by (apply Forall_cons; [exact W0|apply Forall_nil]).
  split; [apply vops_rok; assumption|]. intro j. unfold st2. rewrite !lane_vops.
  change (firstn 25 (fold_left (lop [c0]) s_round (lane2 j s))) with (firstn 25 (skipn 0 (fold_left (lop [c0]) s_round (lane2 j s)))).
  rewrite (round2_ok 32 1 0 0 0 s_round [c0] _ s_round_check (H j) W) by lia. reflexivity.
Qed.
Definition rl (l : list Z) (s : list Z) : list Z := fold_left (fun s c => lround c s) l s.
Lemma rl_cons : forall c l s, rl (c :: l) s = rl l (lround c s).
Proof. reflexivity. Qed.
Lemma loop_by2_ok : forall (body : Z -> Z -> list v128 -> list v128),
  (forall c0 c1 s, w64 c0 -> w64 c1 -> rok2 61 s -> rok2 61 (body c0 c1 s) /\ forall j, st2 (body c0 c1 s) j = lround c1 (lround c0 (st2 s j))) ->
  forall n rc s, (length rc = 2 * n)%nat -> Forall w64 rc -> rok2 61 s ->
  exists s', loop_by2 body n rc s = CRet s' /\ rok2 61 s' /\ forall j, st2 s' j = rl rc (st2 s j).
Proof.
  intros body B. induction n as [|n IH]; intros rc s L W H.
  - destruct rc; [|discriminate L]. exists s. split; [reflexivity|]. split; [exact H|]. reflexivity.
  - destruct rc as [|c0 [|c1 rc]]; try (cbn in L; lia). apply Forall_cons_iff in W. destruct W as [W0 W]. apply Forall_cons_iff in W. destruct W as [W1 W].
    destruct (B c0 c1 s W0 W1 H) as [H1 E1]. assert (L' := L). cbn [length] in L'. destruct (IH rc _ ltac:(lia) W H1) as (s' & E & H' & Es).
    exists s'. split; [exact E|]. split; [exact H'|]. intro j. rewrite Es, E1, !rl_cons. reflexivity.
Qed.
Lemma loop_by1_ok : forall (body : Z -> list v128 -> list v128),
  (forall c0 s, w64 c0 -> rok2 32 s -> rok2 32 (body c0 s) /\ forall j, st2 (body c0 s) j = lround c0 (st2 s j)) ->
  forall n rc s, (length rc = n)%nat -> Forall w64 rc -> rok2 32 s ->
  exists s', loop_by1 body n rc s = CRet s' /\ rok2 32 s' /\ forall j, st2 s' j = rl rc (st2 s j).
Proof.
  intros body B. induction n as [|n IH]; intros rc s L W H.
  - destruct rc; [|discriminate L]. exists s. split; [reflexivity|]. split; [exact H|]. reflexivity.
  - destruct rc as [|c0 rc]; try (cbn in L; lia). apply Forall_cons_iff in W. destruct W as [W0 W].
    destruct (B c0 s W0 H) as [H1 E1]. assert (L' := L). cbn [length] in L'. destruct (IH rc _ ltac:(lia) W H1) as (s' & E & H' & Es).
    exists s'. split; [exact E|]. split; [exact H'|]. intro j. rewrite Es, E1, rl_cons. reflexivity.
Qed.
Definition c_loop_ok : forall n rc s, (length rc = 2 * n)%nat -> Forall w64 rc -> rok2 61 s ->
  exists s', c_loop n rc s = CRet s' /\ rok2 61 s' /\ forall j, st2 s' j = rl rc (st2 s j) := loop_by2_ok _ c_pass.
Definition s_loop_ok : forall n rc s, (length rc = n)%nat -> Forall w64 rc -> rok2 32 s ->
  exists s', s_loop n rc s = CRet s' /\ rok2 32 s' /\ forall j, st2 s' j = rl rc (st2 s j) := loop_by1_ok _ s_pass.
Local Opaque c_loop s_loop.
Lemma rl_rounds : forall s, rl neon_RoundConstants s = rounds (seq 0 24) s.
Proof. intro s. unfold rl, rounds, neon_RoundConstants, KeccakF_RoundConstants. reflexivity. Qed.

(** ** The permutation *)
(** The 25 vectors of a state. *)
Definition ok2 (s : list v128) : Prop := forall j, wf (lane2 j s).
Definition junk_ok (b : build) : Prop := (36 <= length (b_junk b))%nat /\ forall j, Forall w64 (lane2 j (b_junk b)).
Lemma firstn_lane : forall n s j, lane2 j (firstn n s) = firstn n (lane2 j s). Proof. intros. unfold lane2. symmetry. apply firstn_map. Qed.
Lemma Forall_firstn : forall A (P : A -> Prop) n l, Forall P l -> Forall P (firstn n l).
Proof. intros A P n l H. rewrite <- (firstn_skipn n l) in H. apply Forall_app in H. apply H. Qed.
Lemma entry_ok : forall b s k, junk_ok b -> ok2 s -> (k <= 36)%nat ->
  rok2 (25 + k) (firstn 25 s ++ firstn k (b_junk b)) /\ forall j, st2 (firstn 25 s ++ firstn k (b_junk b)) j = lane2 j s.
Proof.
  intros b s k [Lj Fj] H K. assert (Ls : length s = 25%nat) by (rewrite <- (lane2_length false); apply H).
  rewrite (firstn_all2 s) by lia. split.
  - intro j. split.
    + rewrite lane2_length, app_length, firstn_length. lia.
    + unfold lane2. rewrite map_app. apply Forall_app. split; [apply (H j)|]. rewrite <- firstn_map. apply Forall_firstn, (Fj j).
  - intro j. unfold st2, lane2. rewrite map_app, firstn_app, map_length, Ls, Nat.sub_diag, firstn_O, app_nil_r. apply firstn_all2.
    rewrite map_length. exact (Nat.eq_le_incl _ _ Ls).
Qed.
Lemma exit_ok : forall n s, (25 <= n)%nat -> rok2 n s -> ok2 (firstn 25 s).
Proof.
  intros n s N H j. destruct (H j) as [L F]. split.
  - rewrite firstn_lane, firstn_length, L. lia.
  - rewrite firstn_lane. apply Forall_firstn, F.
Qed.
(** For every state, whatever the other registers hold and in both builds, the two-way permutation
    ends within its arrays and each lane of the result is the permutation of that lane. *)
Theorem permutex2_ok : forall b s, junk_ok b -> ok2 s ->
  exists s', StatePermutex2 b s = CRet s' /\ ok2 s' /\ forall j, lane2 j s' = StatePermute (lane2 j s).
Proof.
  intros b s J H.
  assert (W : Forall w64 neon_RoundConstants) by (unfold neon_RoundConstants; repeat (apply Forall_cons; [unfold w64; lia|]); apply Forall_nil).
  assert (P : forall j, StatePermute (lane2 j s) = rl neon_RoundConstants (lane2 j s)).
  { intro j. rewrite permute_rounds by apply (H j). symmetry. apply rl_rounds. }
  unfold StatePermutex2. destruct (b_sha3 b).
  - destruct (entry_ok b s 7 J H ltac:(lia)) as [R E]. destruct (s_loop_ok 24 neon_RoundConstants _ eq_refl W R) as (s' & -> & R' & E').
    cbn [cbind]. eexists. split; [reflexivity|]. split; [apply (exit_ok 32); [lia|exact R']|]. intro j. rewrite firstn_lane, P, <- E. apply E'.
  - destruct (entry_ok b s 36 J H ltac:(lia)) as [R E]. destruct (c_loop_ok 12 neon_RoundConstants _ eq_refl W R) as (s' & -> & R' & E').
    cbn [cbind]. eexists. split; [reflexivity|]. split; [apply (exit_ok 61); [lia|exact R']|]. intro j. rewrite firstn_lane, P, <- E. apply E'.
Qed.
