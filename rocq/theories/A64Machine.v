(** * A64Machine: the AArch64 instructions used by __asm_NTT.S, __asm_iNTT.S and __asm_poly.S of
    pqclean/crypto_sign/dilithium2/aarch64, and those programs, macro by macro.

    A 128-bit register is a list of 4 lanes, lane 0 the least significant 32 bits, each read as
    an [int32_t].  The machine is parametrised by what a lane is: integers for the real machine,
    symbolic values in A64Sym.v.  Memory is a list of arrays of 32-bit words; a pointer is an
    array number and a word offset, so byte displacements of the source are divided by 4 here.
    Every access checks its bounds: [bad] records that some access fell outside its array.
    A loop `mov counter,#n ... cbnz counter` is its body repeated [n] times; the counter register
    itself, the stack and push_all/pop_all (macros_common.inc 31-58) are not modelled. *)
From Coq Require Import ZArith List Lia Bool.
From Verif Require Import Base Bits DilArith AvxMachine.
Import ListNotations.
Open Scope Z_scope.

(** What the machine needs to know about a lane. *)
Record lane64 (V : Type) := {
  n_const : Z -> V;
  n_add : V -> V -> V;
  n_sub : V -> V -> V;
  n_mul : V -> V -> V;
  n_rdmulh : V -> V -> V;
  n_mls : V -> V -> V -> V;
  n_mla : V -> V -> V -> V;
  n_srshr : Z -> V -> V;
  n_sshr : Z -> V -> V;
  n_shl : Z -> V -> V;
  n_cmge : V -> V -> V;
  n_smull : V -> V -> V * V;
  n_smlal : V * V -> V -> V -> V * V;
  n_smlsl : V * V -> V -> V -> V * V;
  n_lsr1 : V -> V;
  n_neg : V -> V }.
Arguments n_const {V} l. Arguments n_add {V} l. Arguments n_sub {V} l. Arguments n_mul {V} l.
Arguments n_rdmulh {V} l. Arguments n_mls {V} l. Arguments n_mla {V} l. Arguments n_srshr {V} l.
Arguments n_sshr {V} l. Arguments n_shl {V} l. Arguments n_cmge {V} l. Arguments n_smull {V} l.
Arguments n_smlal {V} l. Arguments n_smlsl {V} l. Arguments n_lsr1 {V} l. Arguments n_neg {V} l.

(** The real lanes (Arm ARM, C7.2): SQRDMULH is the rounded high half of the doubled product,
    saturated; SRSHR adds the rounding constant before the shift, without overflow; the scalar
    LSR shifts the unsigned word. *)
Definition sqrdmulh (a b : Z) : Z := Z.min (Z.shiftr (2 * a * b + 2147483648) 32) 2147483647.
Definition zlane64 : lane64 Z := {|
  n_const := fun z => z;
  n_add := fun x y => i32 (x + y);
  n_sub := fun x y => i32 (x - y);
  n_mul := fun x y => i32 (x * y);
  n_rdmulh := sqrdmulh;
  n_mls := fun d x y => i32 (d - x * y);
  n_mla := fun d x y => i32 (d + x * y);
  n_srshr := fun n x => Z.shiftr (x + 2 ^ (n - 1)) n;
  n_sshr := fun n x => Z.shiftr x n;
  n_shl := fun n x => i32 (Z.shiftl x n);
  n_cmge := fun x y => if y <=? x then -1 else 0;
  n_smull := fun x y => split64 (x * y);
  n_smlal := fun d x y => split64 (q64 d + x * y);
  n_smlsl := fun d x y => split64 (q64 d - x * y);
  n_lsr1 := fun x => i32 (Z.shiftr (x mod 4294967296) 1);
  n_neg := fun x => i32 (- x) |}.

(** The instructions. [v] numbers are vector registers, [x] numbers general registers, offsets
    are in 32-bit words. *)
Inductive instr : Type :=
| LDRW (d b o : nat)                    (* ldr w_d,[x_b,#4*o] *)
| LDRX (d b o : nat)                    (* ldr x_d,[x_b,#4*o]: two words *)
| MOVX (d s : nat) | ADDX (d s o : nat) (* add x_d,x_s,#4*o *)
| MOVI (d : nat) (z : Z)
| LSR1 (d s : nat) | NEGW (d s : nat)
| LD1 (v : list nat) (x o : nat) | LD2 (v : list nat) (x o : nat) | LD4 (v : list nat) (x o : nat)
| ST1 (v : list nat) (x o : nat) | ST4 (v : list nat) (x o : nat)
| INS (v i x : nat)                     (* mov v.S[i],w_x *)
| INSD (v x : nat)                      (* mov v.D[0],x_x *)
| DUP (v x : nat)
| ADDV (d a b : nat) | SUBV (d a b : nat) | CMGEV (d a b : nat)
| MULV (d a b : nat) | MULS (d a b i : nat)
| SQRDMULHV (d a b : nat) | SQRDMULHS (d a b i : nat)
| MLSV (d a b : nat) | MLSS (d a b i : nat) | MLAV (d a b : nat)
| SRSHR (d a : nat) (n : Z) | SSHR (d a : nat) (n : Z) | SHL (d a : nat) (n : Z)
| TRN1S (d a b : nat) | TRN2S (d a b : nat) | TRN1D (d a b : nat) | TRN2D (d a b : nat)
| UZP1 (d a b : nat) | UZP2 (d a b : nat)
| SMULL (d a b : nat) | SMULL2 (d a b : nat)
| SMLAL (d a b : nat) | SMLAL2 (d a b : nat)
| SMLSL (d a b : nat) | SMLSL2 (d a b : nat).

Section Machine64.
Context {V : Type} (Ln : lane64 V).
Notation vec4 := (list V).

(** General registers: a pointer, a word, two words. *)
Inductive xval : Type := XP (a o : nat) | XW (v : V) | XD (v w : V).
Record mstate64 := { vr : list vec4; xr : list xval; ar : list (list V); bad : bool }.

Definition vget (s : mstate64) (r : nat) : vec4 := nth r (vr s) [].
Definition setv (s : mstate64) (d : nat) (v : vec4) : mstate64 :=
  {| vr := vset (vr s) d v; xr := xr s; ar := ar s; bad := bad s |}.
Definition xget (s : mstate64) (r : nat) : xval := nth r (xr s) (XP 0 0).
Definition setx (s : mstate64) (d : nat) (x : xval) : mstate64 :=
  {| vr := vr s; xr := vset (xr s) d x; ar := ar s; bad := bad s |}.
Definition fail (s : mstate64) : mstate64 := {| vr := vr s; xr := xr s; ar := ar s; bad := true |}.
(** A general register used as a word. *)
Definition word (s : mstate64) (r : nat) : V := match xget s r with XW v => v | _ => n_const Ln 0 end.

(** Memory: [n] words at offset [o] of array [a]. *)
Definition inside (s : mstate64) (a o n : nat) : bool := (o + n <=? length (nth a (ar s) []))%nat.
Definition getm (s : mstate64) (a o n : nat) : list V := firstn n (skipn o (nth a (ar s) [])).
Definition putm (s : mstate64) (a o : nat) (w : list V) : mstate64 :=
  let l := nth a (ar s) [] in
  {| vr := vr s; xr := xr s; ar := vset (ar s) a (firstn o l ++ w ++ skipn (o + length w) l); bad := bad s |}.

Fixpoint map2v (f : V -> V -> V) (a b : vec4) : vec4 :=
  match a, b with x :: a', y :: b' => f x y :: map2v f a' b' | _, _ => [] end.
Fixpoint map3v (f : V -> V -> V -> V) (d a b : vec4) : vec4 :=
  match d, a, b with z :: d', x :: a', y :: b' => f z x y :: map3v f d' a' b' | _, _, _ => [] end.
Definition elem (a : vec4) (i : nat) : V := nth i a (n_const Ln 0).
Definition dup4 (v : V) : vec4 := repeat v 4.
(** Lanes [i], [i+n], [i+2n], ... of a list of words. *)
Fixpoint every (n i : nat) (w : list V) (fuel : nat) : list V :=
  match fuel with O => [] | S f => elem w i :: every n (i + n) w f end.
(** n-element structures: LDn puts element [i] of every structure into register [i], STn
    interleaves. *)
Fixpoint setvs (s : mstate64) (n i : nat) (vs : list nat) (w : list V) : mstate64 :=
  match vs with [] => s | r :: vs' => setvs (setv s r (every n i w 4)) n (S i) vs' w end.
Fixpoint setvs1 (s : mstate64) (vs : list nat) (w : list V) : mstate64 :=
  match vs with [] => s | r :: vs' => setvs1 (setv s r (firstn 4 w)) vs' (skipn 4 w) end.
Definition interleave (s : mstate64) (vs : list nat) : list V :=
  concat (map (fun i => map (fun r => elem (vget s r) i) vs) (seq 0 4)).

Definition trn1 (a b : vec4) : vec4 :=
  match a, b with a0 :: _ :: a2 :: _ :: _, b0 :: _ :: b2 :: _ :: _ => [a0; b0; a2; b2] | _, _ => [] end.
Definition trn2 (a b : vec4) : vec4 :=
  match a, b with _ :: a1 :: _ :: a3 :: _, _ :: b1 :: _ :: b3 :: _ => [a1; b1; a3; b3] | _, _ => [] end.
Definition trn1d (a b : vec4) : vec4 := firstn 2 a ++ firstn 2 b.
Definition trn2d (a b : vec4) : vec4 := skipn 2 a ++ skipn 2 b.
Fixpoint evens (a : vec4) : vec4 := match a with x :: _ :: a' => x :: evens a' | _ => [] end.
Fixpoint odds (a : vec4) : vec4 := match a with _ :: y :: a' => y :: odds a' | _ => [] end.
(** Widening products of two lanes each. *)
Fixpoint smull_ (a b : vec4) : vec4 :=
  match a, b with x :: a', y :: b' => let '(lo, hi) := n_smull Ln x y in lo :: hi :: smull_ a' b' | _, _ => [] end.
Fixpoint acc_ (f : V * V -> V -> V -> V * V) (d a b : vec4) : vec4 :=
  match d, a, b with
  | lo :: hi :: d', x :: a', y :: b' => let '(lo', hi') := f (lo, hi) x y in lo' :: hi' :: acc_ f d' a' b'
  | _, _, _ => []
  end.

Definition load (s : mstate64) (x o n : nat) (k : list V -> mstate64 -> mstate64) : mstate64 :=
  match xget s x with
  | XP a p => if inside s a p n then setx (k (getm s a p n) s) x (XP a (p + o)) else fail s
  | _ => fail s
  end.
Definition store (s : mstate64) (x o : nat) (w : list V) : mstate64 :=
  match xget s x with
  | XP a p => if inside s a p (length w) then setx (putm s a p w) x (XP a (p + o)) else fail s
  | _ => fail s
  end.

Definition exec64 (s : mstate64) (i : instr) : mstate64 :=
  match i with
  | LDRW d b o =>
      match xget s b with
      | XP a p => if inside s a (p + o) 1 then setx s d (XW (elem (getm s a (p + o) 1) 0)) else fail s
      | _ => fail s
      end
  | LDRX d b o =>
      match xget s b with
      | XP a p => if inside s a (p + o) 2 then
          setx s d (XD (elem (getm s a (p + o) 2) 0) (elem (getm s a (p + o) 2) 1)) else fail s
      | _ => fail s
      end
  | MOVX d r => setx s d (xget s r)
  | ADDX d r o => match xget s r with XP a p => setx s d (XP a (p + o)) | _ => fail s end
  | MOVI d z => setx s d (XW (n_const Ln z))
  | LSR1 d r => setx s d (XW (n_lsr1 Ln (word s r)))
  | NEGW d r => setx s d (XW (n_neg Ln (word s r)))
  | LD1 vs x o => load s x o (4 * length vs) (fun w t => setvs1 t vs w)
  | LD2 vs x o => load s x o (4 * length vs) (fun w t => setvs t 2 0 vs w)
  | LD4 vs x o => load s x o (4 * length vs) (fun w t => setvs t 4 0 vs w)
  | ST1 vs x o => store s x o (concat (map (vget s) vs))
  | ST4 vs x o => store s x o (interleave s vs)
  | INS v i x => setv s v (vset (vget s v) i (word s x))
  | INSD v x => match xget s x with XD a b => setv s v ([a; b] ++ skipn 2 (vget s v)) | _ => fail s end
  | DUP v x => setv s v (dup4 (word s x))
  | ADDV d a b => setv s d (map2v (n_add Ln) (vget s a) (vget s b))
  | SUBV d a b => setv s d (map2v (n_sub Ln) (vget s a) (vget s b))
  | CMGEV d a b => setv s d (map2v (n_cmge Ln) (vget s a) (vget s b))
  | MULV d a b => setv s d (map2v (n_mul Ln) (vget s a) (vget s b))
  | MULS d a b i => setv s d (map2v (n_mul Ln) (vget s a) (dup4 (elem (vget s b) i)))
  | SQRDMULHV d a b => setv s d (map2v (n_rdmulh Ln) (vget s a) (vget s b))
  | SQRDMULHS d a b i => setv s d (map2v (n_rdmulh Ln) (vget s a) (dup4 (elem (vget s b) i)))
  | MLSV d a b => setv s d (map3v (n_mls Ln) (vget s d) (vget s a) (vget s b))
  | MLSS d a b i => setv s d (map3v (n_mls Ln) (vget s d) (vget s a) (dup4 (elem (vget s b) i)))
  | MLAV d a b => setv s d (map3v (n_mla Ln) (vget s d) (vget s a) (vget s b))
  | SRSHR d a n => setv s d (map (n_srshr Ln n) (vget s a))
  | SSHR d a n => setv s d (map (n_sshr Ln n) (vget s a))
  | SHL d a n => setv s d (map (n_shl Ln n) (vget s a))
  | TRN1S d a b => setv s d (trn1 (vget s a) (vget s b))
  | TRN2S d a b => setv s d (trn2 (vget s a) (vget s b))
  | TRN1D d a b => setv s d (trn1d (vget s a) (vget s b))
  | TRN2D d a b => setv s d (trn2d (vget s a) (vget s b))
  | UZP1 d a b => setv s d (evens (vget s a ++ vget s b))
  | UZP2 d a b => setv s d (odds (vget s a ++ vget s b))
  | SMULL d a b => setv s d (smull_ (firstn 2 (vget s a)) (firstn 2 (vget s b)))
  | SMULL2 d a b => setv s d (smull_ (skipn 2 (vget s a)) (skipn 2 (vget s b)))
  | SMLAL d a b => setv s d (acc_ (n_smlal Ln) (vget s d) (firstn 2 (vget s a)) (firstn 2 (vget s b)))
  | SMLAL2 d a b => setv s d (acc_ (n_smlal Ln) (vget s d) (skipn 2 (vget s a)) (skipn 2 (vget s b)))
  | SMLSL d a b => setv s d (acc_ (n_smlsl Ln) (vget s d) (firstn 2 (vget s a)) (firstn 2 (vget s b)))
  | SMLSL2 d a b => setv s d (acc_ (n_smlsl Ln) (vget s d) (skipn 2 (vget s a)) (skipn 2 (vget s b)))
  end.
Definition run64 (p : list instr) (s : mstate64) : mstate64 := fold_left exec64 p s.
(** The state on entry: pointer arguments in x0, x1, ...; everything else as it happens to be. *)
Definition enter (vs : list vec4) (args : list (nat * nat)) (junk : list V) (arrays : list (list V)) : mstate64 :=
  {| vr := vs; xr := map (fun p => XP (fst p) (snd p)) args ++ map XW junk; ar := arrays; bad := false |}.
(** The arrays after a call, or nothing if an access was out of bounds. *)
Definition leave (s : mstate64) : option (list (list V)) := if bad s then None else Some (ar s).
End Machine64.
Arguments xval V : clear implicits. Arguments mstate64 V : clear implicits.

(** `mov counter,#n; label: body; sub counter,counter,#1; cbnz counter,label`. *)
Definition loop (n : nat) (body : list instr) : list instr := concat (repeat body n).

Open Scope nat_scope.
(** macros_common.inc 119-136, called through macros.inc 88-90. *)
Definition qq_butterfly_top (a0 a1 a2 a3 b0 b1 b2 b3 t0 t1 t2 t3 md z0 l0 h0 z1 l1 h1 z2 l2 h2 z3 l3 h3 : nat) : list instr :=
 [
  MULS t0 b0 z0 h0; MULS t1 b1 z1 h1; MULS t2 b2 z2 h2; MULS t3 b3 z3 h3; SQRDMULHS b0 b0 z0 l0;
  SQRDMULHS b1 b1 z1 l1; SQRDMULHS b2 b2 z2 l2; SQRDMULHS b3 b3 z3 l3; MLSS t0 b0 md 0; MLSS t1 b1 md 0;
  MLSS t2 b2 md 0; MLSS t3 b3 md 0 ].
(** macros_common.inc 138-150, called through macros.inc 92-94. *)
Definition qq_butterfly_bot (a0 a1 a2 a3 b0 b1 b2 b3 t0 t1 t2 t3 md z0 l0 h0 z1 l1 h1 z2 l2 h2 z3 l3 h3 : nat) : list instr :=
 [
  SUBV b0 a0 t0; SUBV b1 a1 t1; SUBV b2 a2 t2; SUBV b3 a3 t3; ADDV a0 a0 t0; ADDV a1 a1 t1; ADDV a2 a2 t2;
  ADDV a3 a3 t3 ].
(** macros_common.inc 152-177, called through macros.inc 96-98. *)
Definition qq_butterfly_mixed (a0 a1 a2 a3 b0 b1 b2 b3 t0 t1 t2 t3 a4 a5 a6 a7 b4 b5 b6 b7 t4 t5 t6 t7 md z0 l0 h0 z1 l1 h1 z2 l2 h2 z3 l3 h3 z4 l4 h4 z5 l5 h5 z6 l6 h6 z7 l7 h7 : nat) : list instr :=
 [
  SUBV b0 a0 t0; MULS t4 b4 z4 h4; SUBV b1 a1 t1; MULS t5 b5 z5 h5; SUBV b2 a2 t2; MULS t6 b6 z6 h6; SUBV b3 a3 t3;
  MULS t7 b7 z7 h7; ADDV a0 a0 t0; SQRDMULHS b4 b4 z4 l4; ADDV a1 a1 t1; SQRDMULHS b5 b5 z5 l5; ADDV a2 a2 t2;
  SQRDMULHS b6 b6 z6 l6; ADDV a3 a3 t3; SQRDMULHS b7 b7 z7 l7; MLSS t4 b4 md 0; MLSS t5 b5 md 0; MLSS t6 b6 md 0;
  MLSS t7 b7 md 0 ].
(** macros_common.inc 179-204, called through macros.inc 100-102. *)
Definition qq_butterfly_mixed_rev (a0 a1 a2 a3 b0 b1 b2 b3 t0 t1 t2 t3 a4 a5 a6 a7 b4 b5 b6 b7 t4 t5 t6 t7 md z0 l0 h0 z1 l1 h1 z2 l2 h2 z3 l3 h3 z4 l4 h4 z5 l5 h5 z6 l6 h6 z7 l7 h7 : nat) : list instr :=
 [
  MULS t0 b0 z0 h0; SUBV b4 a4 t4; MULS t1 b1 z1 h1; SUBV b5 a5 t5; MULS t2 b2 z2 h2; SUBV b6 a6 t6;
  MULS t3 b3 z3 h3; SUBV b7 a7 t7; SQRDMULHS b0 b0 z0 l0; ADDV a4 a4 t4; SQRDMULHS b1 b1 z1 l1; ADDV a5 a5 t5;
  SQRDMULHS b2 b2 z2 l2; ADDV a6 a6 t6; SQRDMULHS b3 b3 z3 l3; ADDV a7 a7 t7; MLSS t0 b0 md 0; MLSS t1 b1 md 0;
  MLSS t2 b2 md 0; MLSS t3 b3 md 0 ].
(** macros_common.inc 62-73, called through macros.inc 66-68. *)
Definition dq_butterfly_top (a0 a1 b0 b1 t0 t1 md z0 l0 h0 z1 l1 h1 : nat) : list instr :=
 [
  MULS t0 b0 z0 h0; MULS t1 b1 z1 h1; SQRDMULHS b0 b0 z0 l0; SQRDMULHS b1 b1 z1 l1; MLSS t0 b0 md 0; MLSS t1 b1 md 0 ].
(** macros_common.inc 75-83, called through macros.inc 70-72. *)
Definition dq_butterfly_bot (a0 a1 b0 b1 t0 t1 md z0 l0 h0 z1 l1 h1 : nat) : list instr :=
 [
  SUBV b0 a0 t0; SUBV b1 a1 t1; ADDV a0 a0 t0; ADDV a1 a1 t1 ].
(** macros_common.inc 85-100, called through macros.inc 74-76. *)
Definition dq_butterfly_mixed (a0 a1 b0 b1 t0 t1 a2 a3 b2 b3 t2 t3 md z0 l0 h0 z1 l1 h1 z2 l2 h2 z3 l3 h3 : nat) : list instr :=
 [
  SUBV b0 a0 t0; MULS t2 b2 z2 h2; SUBV b1 a1 t1; MULS t3 b3 z3 h3; ADDV a0 a0 t0; SQRDMULHS b2 b2 z2 l2;
  ADDV a1 a1 t1; SQRDMULHS b3 b3 z3 l3; MLSS t2 b2 md 0; MLSS t3 b3 md 0 ].
(** macros_common.inc 102-117, called through macros.inc 78-80. *)
Definition dq_butterfly_mixed_rev (a0 a1 b0 b1 t0 t1 a2 a3 b2 b3 t2 t3 md z0 l0 h0 z1 l1 h1 z2 l2 h2 z3 l3 h3 : nat) : list instr :=
 [
  MULS t0 b0 z0 h0; SUBV b2 a2 t2; MULS t1 b1 z1 h1; SUBV b3 a3 t3; SQRDMULHS b0 b0 z0 l0; ADDV a2 a2 t2;
  SQRDMULHS b1 b1 z1 l1; ADDV a3 a3 t3; MLSS t0 b0 md 0; MLSS t1 b1 md 0 ].
(** macros_common.inc 208-219, called through macros.inc 53-55. *)
Definition dq_butterfly_vec_top (a0 a1 b0 b1 t0 t1 md l0 h0 l1 h1 : nat) : list instr :=
 [
  MULV t0 b0 h0; MULV t1 b1 h1; SQRDMULHV b0 b0 l0; SQRDMULHV b1 b1 l1; MLSS t0 b0 md 0; MLSS t1 b1 md 0 ].
(** macros_common.inc 221-229, called through macros.inc 49-51. *)
Definition dq_butterfly_vec_bot (a0 a1 b0 b1 t0 t1 md l0 h0 l1 h1 : nat) : list instr :=
 [
  SUBV b0 a0 t0; SUBV b1 a1 t1; ADDV a0 a0 t0; ADDV a1 a1 t1 ].
(** macros_common.inc 231-246, called through macros.inc 57-59. *)
Definition dq_butterfly_vec_mixed (a0 a1 b0 b1 t0 t1 a2 a3 b2 b3 t2 t3 md l0 h0 l1 h1 l2 h2 l3 h3 : nat) : list instr :=
 [
  SUBV b0 a0 t0; MULV t2 b2 h2; SUBV b1 a1 t1; MULV t3 b3 h3; ADDV a0 a0 t0; SQRDMULHV b2 b2 l2; ADDV a1 a1 t1;
  SQRDMULHV b3 b3 l3; MLSS t2 b2 md 0; MLSS t3 b3 md 0 ].
(** macros_common.inc 248-263, called through macros.inc 61-63. *)
Definition dq_butterfly_vec_mixed_rev (a0 a1 b0 b1 t0 t1 a2 a3 b2 b3 t2 t3 md l0 h0 l1 h1 l2 h2 l3 h3 : nat) : list instr :=
 [
  MULV t0 b0 h0; SUBV b2 a2 t2; MULV t1 b1 h1; SUBV b3 a3 t3; SQRDMULHV b0 b0 l0; ADDV a2 a2 t2; SQRDMULHV b1 b1 l1;
  ADDV a3 a3 t3; MLSS t0 b0 md 0; MLSS t1 b1 md 0 ].
(** macros.inc 30-42, called through macros.inc 44-46. *)
Definition trn_4x4 (a0 a1 a2 a3 t0 t1 t2 t3 : nat) : list instr :=
 [
  TRN1S t0 a0 a1; TRN2S t1 a0 a1; TRN1S t2 a2 a3; TRN2S t3 a2 a3; TRN1D a0 t0 t2; TRN2D a2 t0 t2; TRN1D a1 t1 t3;
  TRN2D a3 t1 t3 ].
(** macros_common.inc 439-450, called through macros.inc 109-111. *)
Definition qq_sub_add (s0 s1 s2 s3 t0 t1 t2 t3 a0 a1 a2 a3 b0 b1 b2 b3 : nat) : list instr :=
 [
  SUBV t0 a0 b0; ADDV s0 a0 b0; SUBV t1 a1 b1; ADDV s1 a1 b1; SUBV t2 a2 b2; ADDV s2 a2 b2; SUBV t3 a3 b3;
  ADDV s3 a3 b3 ].
(** macros_common.inc 375-392, called through macros.inc 83-85. *)
Definition qq_montgomery_mul (b0 b1 b2 b3 t0 t1 t2 t3 md z0 l0 h0 z1 l1 h1 z2 l2 h2 z3 l3 h3 : nat) : list instr :=
 [
  MULS b0 t0 z0 h0; MULS b1 t1 z1 h1; MULS b2 t2 z2 h2; MULS b3 t3 z3 h3; SQRDMULHS t0 t0 z0 l0;
  SQRDMULHS t1 t1 z1 l1; SQRDMULHS t2 t2 z2 l2; SQRDMULHS t3 t3 z3 l3; MLSS b0 t0 md 0; MLSS b1 t1 md 0;
  MLSS b2 t2 md 0; MLSS b3 t3 md 0 ].
(** __asm_NTT.S 33-206: [asm_ntt_SIMD_top]. *)
Definition ntt_top_prog : list instr :=
   [
    LDRW 20 2 0; MOVX 28 1; ADDX 1 0 16; ADDX 2 0 32; ADDX 3 0 48; ADDX 4 0 64; ADDX 5 0 80; ADDX 6 0 96;
    ADDX 7 0 112; ADDX 8 0 128; ADDX 9 0 144; ADDX 10 0 160; ADDX 11 0 176; ADDX 12 0 192; ADDX 13 0 208;
    ADDX 14 0 224; ADDX 15 0 240; LD1 [20; 21; 22; 23] 28 16; LD1 [24; 25; 26; 27] 28 16; INS 20 0 20; LD1 [1] 1 0;
    LD1 [3] 3 0; LD1 [5] 5 0; LD1 [7] 7 0; LD1 [9] 9 0; LD1 [11] 11 0; LD1 [13] 13 0; LD1 [15] 15 0; LD1 [0] 0 0;
    LD1 [2] 2 0; LD1 [4] 4 0; LD1 [6] 6 0; LD1 [8] 8 0; LD1 [10] 10 0; LD1 [12] 12 0; LD1 [14] 14 0 ] ++
   qq_butterfly_top 1 3 5 7 9 11 13 15 16 17 18 19 20 20 2 3 20 2 3 20 2 3 20 2 3 ++
   qq_butterfly_mixed 1 3 5 7 9 11 13 15 16 17 18 19 0 2 4 6 8 10 12 14 28 29 30 31 20 20 2 3 20 2 3 20 2 3 20 2 3 20 2 3 20 2 3 20 2 3 20 2 3 ++
   qq_butterfly_mixed 0 2 4 6 8 10 12 14 28 29 30 31 1 3 9 11 5 7 13 15 16 17 18 19 20 20 2 3 20 2 3 20 2 3 20 2 3 21 0 1 21 0 1 21 2 3 21 2 3 ++
   qq_butterfly_mixed 1 3 9 11 5 7 13 15 16 17 18 19 0 2 8 10 4 6 12 14 28 29 30 31 20 21 0 1 21 0 1 21 2 3 21 2 3 21 0 1 21 0 1 21 2 3 21 2 3 ++
   qq_butterfly_mixed 0 2 8 10 4 6 12 14 28 29 30 31 1 5 9 13 3 7 11 15 16 17 18 19 20 21 0 1 21 0 1 21 2 3 21 2 3 22 0 1 22 2 3 23 0 1 23 2 3 ++
   qq_butterfly_mixed 1 5 9 13 3 7 11 15 16 17 18 19 0 4 8 12 2 6 10 14 28 29 30 31 20 22 0 1 22 2 3 23 0 1 23 2 3 22 0 1 22 2 3 23 0 1 23 2 3 ++
   qq_butterfly_mixed 0 4 8 12 2 6 10 14 28 29 30 31 0 2 4 6 1 3 5 7 16 17 18 19 20 22 0 1 22 2 3 23 0 1 23 2 3 24 0 1 24 2 3 25 0 1 25 2 3 ++
   qq_butterfly_mixed 0 2 4 6 1 3 5 7 16 17 18 19 8 10 12 14 9 11 13 15 28 29 30 31 20 24 0 1 24 2 3 25 0 1 25 2 3 26 0 1 26 2 3 27 0 1 27 2 3 ++
   qq_butterfly_bot 8 10 12 14 9 11 13 15 28 29 30 31 20 26 0 1 26 2 3 27 0 1 27 2 3 ++
   loop 3 (
   [
    ST1 [1] 1 4; LD1 [1] 1 0; ST1 [3] 3 4; LD1 [3] 3 0; ST1 [5] 5 4; LD1 [5] 5 0; ST1 [7] 7 4; LD1 [7] 7 0;
    ST1 [9] 9 4; LD1 [9] 9 0; ST1 [11] 11 4; LD1 [11] 11 0; ST1 [13] 13 4; LD1 [13] 13 0; ST1 [15] 15 4;
    LD1 [15] 15 0; ST1 [0] 0 4; LD1 [0] 0 0; ST1 [2] 2 4; LD1 [2] 2 0; ST1 [4] 4 4; LD1 [4] 4 0; ST1 [6] 6 4;
    LD1 [6] 6 0; ST1 [8] 8 4; LD1 [8] 8 0; ST1 [10] 10 4; LD1 [10] 10 0; ST1 [12] 12 4; LD1 [12] 12 0; ST1 [14] 14 4;
    LD1 [14] 14 0 ] ++
   qq_butterfly_top 1 3 5 7 9 11 13 15 16 17 18 19 20 20 2 3 20 2 3 20 2 3 20 2 3 ++
   qq_butterfly_mixed 1 3 5 7 9 11 13 15 16 17 18 19 0 2 4 6 8 10 12 14 28 29 30 31 20 20 2 3 20 2 3 20 2 3 20 2 3 20 2 3 20 2 3 20 2 3 20 2 3 ++
   qq_butterfly_mixed 0 2 4 6 8 10 12 14 28 29 30 31 1 3 9 11 5 7 13 15 16 17 18 19 20 20 2 3 20 2 3 20 2 3 20 2 3 21 0 1 21 0 1 21 2 3 21 2 3 ++
   qq_butterfly_mixed 1 3 9 11 5 7 13 15 16 17 18 19 0 2 8 10 4 6 12 14 28 29 30 31 20 21 0 1 21 0 1 21 2 3 21 2 3 21 0 1 21 0 1 21 2 3 21 2 3 ++
   qq_butterfly_mixed 0 2 8 10 4 6 12 14 28 29 30 31 1 5 9 13 3 7 11 15 16 17 18 19 20 21 0 1 21 0 1 21 2 3 21 2 3 22 0 1 22 2 3 23 0 1 23 2 3 ++
   qq_butterfly_mixed 1 5 9 13 3 7 11 15 16 17 18 19 0 4 8 12 2 6 10 14 28 29 30 31 20 22 0 1 22 2 3 23 0 1 23 2 3 22 0 1 22 2 3 23 0 1 23 2 3 ++
   qq_butterfly_mixed 0 4 8 12 2 6 10 14 28 29 30 31 0 2 4 6 1 3 5 7 16 17 18 19 20 22 0 1 22 2 3 23 0 1 23 2 3 24 0 1 24 2 3 25 0 1 25 2 3 ++
   qq_butterfly_mixed 0 2 4 6 1 3 5 7 16 17 18 19 8 10 12 14 9 11 13 15 28 29 30 31 20 24 0 1 24 2 3 25 0 1 25 2 3 26 0 1 26 2 3 27 0 1 27 2 3 ++
   qq_butterfly_bot 8 10 12 14 9 11 13 15 28 29 30 31 20 26 0 1 26 2 3 27 0 1 27 2 3) ++
   [
    ST1 [1] 1 4; ST1 [3] 3 4; ST1 [5] 5 4; ST1 [7] 7 4; ST1 [9] 9 4; ST1 [11] 11 4; ST1 [13] 13 4; ST1 [15] 15 4;
    ST1 [0] 0 4; ST1 [2] 2 4; ST1 [4] 4 4; ST1 [6] 6 4; ST1 [8] 8 4; ST1 [10] 10 4; ST1 [12] 12 4; ST1 [14] 14 4 ].
(** __asm_NTT.S 211-280: [asm_ntt_SIMD_bot]. *)
Definition ntt_bot_prog : list instr :=
   [
    LDRW 20 2 0; ADDX 28 1 32; ADDX 27 28 256; ADDX 2 0 128; ADDX 1 0 0; ADDX 3 0 128 ] ++
   loop 8 (
   [
    LD1 [0; 1; 2; 3] 0 16; LD1 [16; 17; 18; 19] 2 16; LD1 [4; 5] 28 8; LD2 [6; 7] 28 8; LD4 [8; 9; 10; 11] 28 16;
    LD1 [20; 21] 27 8; LD2 [22; 23] 27 8; LD4 [24; 25; 26; 27] 27 16; INS 4 0 20 ] ++
   dq_butterfly_top 0 1 2 3 12 13 4 4 2 3 4 2 3 ++
   dq_butterfly_mixed 0 1 2 3 12 13 16 17 18 19 28 29 4 4 2 3 4 2 3 20 2 3 20 2 3 ++
   dq_butterfly_mixed 16 17 18 19 28 29 0 2 1 3 12 13 4 20 2 3 20 2 3 5 0 1 5 2 3 ++
   dq_butterfly_mixed 0 2 1 3 12 13 16 18 17 19 28 29 4 5 0 1 5 2 3 21 0 1 21 2 3 ++
   dq_butterfly_bot 16 18 17 19 28 29 4 21 0 1 21 2 3 ++
   trn_4x4 0 1 2 3 12 13 14 15 ++
   trn_4x4 16 17 18 19 28 29 30 31 ++
   dq_butterfly_vec_top 0 1 2 3 12 13 4 6 7 6 7 ++
   dq_butterfly_vec_mixed 0 1 2 3 12 13 16 17 18 19 28 29 4 6 7 6 7 22 23 22 23 ++
   dq_butterfly_vec_mixed 16 17 18 19 28 29 0 2 1 3 12 13 4 22 23 22 23 8 9 10 11 ++
   dq_butterfly_vec_mixed 0 2 1 3 12 13 16 18 17 19 28 29 4 8 9 10 11 24 25 26 27 ++
   dq_butterfly_vec_bot 16 18 17 19 28 29 4 24 25 26 27 ++
   [
    ST4 [0; 1; 2; 3] 1 16; ST4 [16; 17; 18; 19] 3 16 ]).
(** __asm_iNTT.S 33-435: [asm_intt_SIMD_top]. *)
Definition intt_top_prog : list instr :=
   [
    LDRW 20 2 0; LSR1 21 20; NEGW 22 21; LDRW 24 2 4; LDRW 25 2 5; LDRW 26 2 6; LDRW 27 2 7; MOVX 28 1; ADDX 1 0 16;
    ADDX 2 0 32; ADDX 3 0 48; ADDX 4 0 64; ADDX 5 0 80; ADDX 6 0 96; ADDX 7 0 112; ADDX 8 0 128; ADDX 9 0 144;
    ADDX 10 0 160; ADDX 11 0 176; ADDX 12 0 192; ADDX 13 0 208; ADDX 14 0 224; ADDX 15 0 240;
    LD1 [20; 21; 22; 23] 28 16; LD1 [24; 25; 26; 27] 28 16; INS 20 0 20; LD1 [0] 0 0; LD1 [1] 1 0; LD1 [2] 2 0;
    LD1 [3] 3 0; LD1 [4] 4 0; LD1 [5] 5 0; LD1 [6] 6 0; LD1 [7] 7 0; LD1 [8] 8 0; LD1 [9] 9 0; LD1 [10] 10 0;
    LD1 [11] 11 0; LD1 [12] 12 0; LD1 [13] 13 0; LD1 [14] 14 0; LD1 [15] 15 0 ] ++
   qq_butterfly_bot 0 2 4 6 16 17 18 19 1 3 5 7 20 24 0 1 24 2 3 25 0 1 25 2 3 ++
   qq_butterfly_mixed_rev 0 2 4 6 16 17 18 19 1 3 5 7 8 10 12 14 28 29 30 31 9 11 13 15 20 24 0 1 24 2 3 25 0 1 25 2 3 26 0 1 26 2 3 27 0 1 27 2 3 ++
   qq_butterfly_mixed_rev 8 10 12 14 28 29 30 31 9 11 13 15 0 1 4 5 16 17 18 19 2 3 6 7 20 26 0 1 26 2 3 27 0 1 27 2 3 22 0 1 22 0 1 22 2 3 22 2 3 ++
   qq_butterfly_mixed_rev 0 1 4 5 16 17 18 19 2 3 6 7 8 9 12 13 28 29 30 31 10 11 14 15 20 22 0 1 22 0 1 22 2 3 22 2 3 23 0 1 23 0 1 23 2 3 23 2 3 ++
   qq_butterfly_mixed_rev 8 9 12 13 28 29 30 31 10 11 14 15 0 1 2 3 16 17 18 19 4 5 6 7 20 23 0 1 23 0 1 23 2 3 23 2 3 21 0 1 21 0 1 21 0 1 21 0 1 ++
   qq_butterfly_mixed_rev 0 1 2 3 16 17 18 19 4 5 6 7 8 9 10 11 28 29 30 31 12 13 14 15 20 21 0 1 21 0 1 21 0 1 21 0 1 21 2 3 21 2 3 21 2 3 21 2 3 ++
   qq_butterfly_top 8 9 10 11 28 29 30 31 12 13 14 15 20 21 2 3 21 2 3 21 2 3 21 2 3 ++
   [
    INS 20 2 26; INS 20 3 27 ] ++
   qq_sub_add 16 17 18 19 28 29 30 31 0 2 4 6 8 10 12 14 ++
   qq_sub_add 0 2 4 6 8 10 12 14 1 3 5 7 9 11 13 15 ++
   qq_montgomery_mul 9 11 13 15 8 10 12 14 20 20 2 3 20 2 3 20 2 3 20 2 3 ++
   qq_montgomery_mul 8 10 12 14 28 29 30 31 20 20 2 3 20 2 3 20 2 3 20 2 3 ++
   [
    INS 20 2 24; INS 20 3 25 ] ++
   qq_montgomery_mul 1 3 5 7 0 2 4 6 20 20 2 3 20 2 3 20 2 3 20 2 3 ++
   qq_montgomery_mul 0 2 4 6 16 17 18 19 20 20 2 3 20 2 3 20 2 3 20 2 3 ++
   [
    DUP 29 20; DUP 30 21; DUP 31 22; CMGEV 18 31 0; CMGEV 19 31 1; CMGEV 16 0 30; CMGEV 17 1 30; SUBV 16 16 18;
    SUBV 17 17 19; MLAV 0 16 29; MLAV 1 17 29; CMGEV 18 31 2; CMGEV 19 31 3; CMGEV 16 2 30; CMGEV 17 3 30;
    SUBV 16 16 18; SUBV 17 17 19; MLAV 2 16 29; MLAV 3 17 29; CMGEV 18 31 4; CMGEV 19 31 5; CMGEV 16 4 30;
    CMGEV 17 5 30; SUBV 16 16 18; SUBV 17 17 19; MLAV 4 16 29; MLAV 5 17 29; CMGEV 18 31 6; CMGEV 19 31 7;
    CMGEV 16 6 30; CMGEV 17 7 30; SUBV 16 16 18; SUBV 17 17 19; MLAV 6 16 29; MLAV 7 17 29; CMGEV 18 31 8;
    CMGEV 19 31 9; CMGEV 16 8 30; CMGEV 17 9 30; SUBV 16 16 18; SUBV 17 17 19; MLAV 8 16 29; MLAV 9 17 29;
    CMGEV 18 31 10; CMGEV 19 31 11; CMGEV 16 10 30; CMGEV 17 11 30; SUBV 16 16 18; SUBV 17 17 19; MLAV 10 16 29;
    MLAV 11 17 29; CMGEV 18 31 12; CMGEV 19 31 13; CMGEV 16 12 30; CMGEV 17 13 30; SUBV 16 16 18; SUBV 17 17 19;
    MLAV 12 16 29; MLAV 13 17 29; CMGEV 18 31 14; CMGEV 19 31 15; CMGEV 16 14 30; CMGEV 17 15 30; SUBV 16 16 18;
    SUBV 17 17 19; MLAV 14 16 29; MLAV 15 17 29 ] ++
   loop 3 (
   [
    ST1 [0] 0 4; LD1 [0] 0 0; ST1 [1] 1 4; LD1 [1] 1 0; ST1 [2] 2 4; LD1 [2] 2 0; ST1 [3] 3 4; LD1 [3] 3 0;
    ST1 [4] 4 4; LD1 [4] 4 0; ST1 [5] 5 4; LD1 [5] 5 0; ST1 [6] 6 4; LD1 [6] 6 0; ST1 [7] 7 4; LD1 [7] 7 0;
    ST1 [8] 8 4; LD1 [8] 8 0; ST1 [9] 9 4; LD1 [9] 9 0; ST1 [10] 10 4; LD1 [10] 10 0; ST1 [11] 11 4; LD1 [11] 11 0;
    ST1 [12] 12 4; LD1 [12] 12 0; ST1 [13] 13 4; LD1 [13] 13 0; ST1 [14] 14 4; LD1 [14] 14 0; ST1 [15] 15 4;
    LD1 [15] 15 0 ] ++
   qq_butterfly_bot 0 2 4 6 16 17 18 19 1 3 5 7 20 24 0 1 24 2 3 25 0 1 25 2 3 ++
   qq_butterfly_mixed_rev 0 2 4 6 16 17 18 19 1 3 5 7 8 10 12 14 28 29 30 31 9 11 13 15 20 24 0 1 24 2 3 25 0 1 25 2 3 26 0 1 26 2 3 27 0 1 27 2 3 ++
   qq_butterfly_mixed_rev 8 10 12 14 28 29 30 31 9 11 13 15 0 1 4 5 16 17 18 19 2 3 6 7 20 26 0 1 26 2 3 27 0 1 27 2 3 22 0 1 22 0 1 22 2 3 22 2 3 ++
   qq_butterfly_mixed_rev 0 1 4 5 16 17 18 19 2 3 6 7 8 9 12 13 28 29 30 31 10 11 14 15 20 22 0 1 22 0 1 22 2 3 22 2 3 23 0 1 23 0 1 23 2 3 23 2 3 ++
   qq_butterfly_mixed_rev 8 9 12 13 28 29 30 31 10 11 14 15 0 1 2 3 16 17 18 19 4 5 6 7 20 23 0 1 23 0 1 23 2 3 23 2 3 21 0 1 21 0 1 21 0 1 21 0 1 ++
   qq_butterfly_mixed_rev 0 1 2 3 16 17 18 19 4 5 6 7 8 9 10 11 28 29 30 31 12 13 14 15 20 21 0 1 21 0 1 21 0 1 21 0 1 21 2 3 21 2 3 21 2 3 21 2 3 ++
   qq_butterfly_top 8 9 10 11 28 29 30 31 12 13 14 15 20 21 2 3 21 2 3 21 2 3 21 2 3 ++
   [
    INS 20 2 26; INS 20 3 27 ] ++
   qq_sub_add 16 17 18 19 28 29 30 31 0 2 4 6 8 10 12 14 ++
   qq_sub_add 0 2 4 6 8 10 12 14 1 3 5 7 9 11 13 15 ++
   qq_montgomery_mul 9 11 13 15 8 10 12 14 20 20 2 3 20 2 3 20 2 3 20 2 3 ++
   qq_montgomery_mul 8 10 12 14 28 29 30 31 20 20 2 3 20 2 3 20 2 3 20 2 3 ++
   [
    INS 20 2 24; INS 20 3 25 ] ++
   qq_montgomery_mul 1 3 5 7 0 2 4 6 20 20 2 3 20 2 3 20 2 3 20 2 3 ++
   qq_montgomery_mul 0 2 4 6 16 17 18 19 20 20 2 3 20 2 3 20 2 3 20 2 3 ++
   [
    DUP 29 20; DUP 30 21; DUP 31 22; CMGEV 18 31 0; CMGEV 19 31 1; CMGEV 16 0 30; CMGEV 17 1 30; SUBV 16 16 18;
    SUBV 17 17 19; MLAV 0 16 29; MLAV 1 17 29; CMGEV 18 31 2; CMGEV 19 31 3; CMGEV 16 2 30; CMGEV 17 3 30;
    SUBV 16 16 18; SUBV 17 17 19; MLAV 2 16 29; MLAV 3 17 29; CMGEV 18 31 4; CMGEV 19 31 5; CMGEV 16 4 30;
    CMGEV 17 5 30; SUBV 16 16 18; SUBV 17 17 19; MLAV 4 16 29; MLAV 5 17 29; CMGEV 18 31 6; CMGEV 19 31 7;
    CMGEV 16 6 30; CMGEV 17 7 30; SUBV 16 16 18; SUBV 17 17 19; MLAV 6 16 29; MLAV 7 17 29; CMGEV 18 31 8;
    CMGEV 19 31 9; CMGEV 16 8 30; CMGEV 17 9 30; SUBV 16 16 18; SUBV 17 17 19; MLAV 8 16 29; MLAV 9 17 29;
    CMGEV 18 31 10; CMGEV 19 31 11; CMGEV 16 10 30; CMGEV 17 11 30; SUBV 16 16 18; SUBV 17 17 19; MLAV 10 16 29;
    MLAV 11 17 29; CMGEV 18 31 12; CMGEV 19 31 13; CMGEV 16 12 30; CMGEV 17 13 30; SUBV 16 16 18; SUBV 17 17 19;
    MLAV 12 16 29; MLAV 13 17 29; CMGEV 18 31 14; CMGEV 19 31 15; CMGEV 16 14 30; CMGEV 17 15 30; SUBV 16 16 18;
    SUBV 17 17 19; MLAV 14 16 29; MLAV 15 17 29 ]) ++
   [
    ST1 [0] 0 4; ST1 [1] 1 4; ST1 [2] 2 4; ST1 [3] 3 4; ST1 [4] 4 4; ST1 [5] 5 4; ST1 [6] 6 4; ST1 [7] 7 4;
    ST1 [8] 8 4; ST1 [9] 9 4; ST1 [10] 10 4; ST1 [11] 11 4; ST1 [12] 12 4; ST1 [13] 13 4; ST1 [14] 14 4; ST1 [15] 15 4 ].
(** __asm_iNTT.S 440-523: [asm_intt_SIMD_bot]. *)
Definition intt_bot_prog : list instr :=
   [
    LDRW 20 2 0; LDRX 21 2 2; ADDX 28 1 32; ADDX 27 28 256; ADDX 2 0 128; ADDX 1 0 0; ADDX 3 0 128 ] ++
   loop 8 (
   [
    LD4 [0; 1; 2; 3] 0 16; LD4 [16; 17; 18; 19] 2 16; LD1 [4; 5] 28 8; LD2 [6; 7] 28 8; LD4 [8; 9; 10; 11] 28 16;
    LD1 [20; 21] 27 8; LD2 [22; 23] 27 8; LD4 [24; 25; 26; 27] 27 16; INS 4 0 20; INSD 20 21 ] ++
   dq_butterfly_vec_bot 0 2 12 13 1 3 4 8 9 10 11 ++
   dq_butterfly_vec_mixed_rev 0 2 12 13 1 3 16 18 28 29 17 19 4 8 9 10 11 24 25 26 27 ++
   dq_butterfly_vec_mixed_rev 16 18 28 29 17 19 0 1 12 13 2 3 4 24 25 26 27 6 7 6 7 ++
   dq_butterfly_vec_mixed_rev 0 1 12 13 2 3 16 17 28 29 18 19 4 6 7 6 7 22 23 22 23 ++
   dq_butterfly_vec_top 16 17 28 29 18 19 4 22 23 22 23 ++
   trn_4x4 0 1 2 3 12 13 14 15 ++
   trn_4x4 16 17 18 19 28 29 30 31 ++
   dq_butterfly_bot 0 2 12 13 1 3 4 5 0 1 5 2 3 ++
   dq_butterfly_mixed_rev 0 2 12 13 1 3 16 18 28 29 17 19 4 5 0 1 5 2 3 21 0 1 21 2 3 ++
   dq_butterfly_mixed_rev 16 18 28 29 17 19 0 1 12 13 2 3 4 21 0 1 21 2 3 4 2 3 4 2 3 ++
   dq_butterfly_mixed_rev 0 1 12 13 2 3 16 17 28 29 18 19 4 4 2 3 4 2 3 20 2 3 20 2 3 ++
   dq_butterfly_top 16 17 28 29 18 19 4 20 2 3 20 2 3 ++
   [
    SRSHR 14 0 23; SRSHR 15 1 23; SRSHR 30 16 23; SRSHR 31 17 23; MLSS 0 14 4 0; MLSS 1 15 4 0; MLSS 16 30 4 0;
    MLSS 17 31 4 0; ST1 [0; 1; 2; 3] 1 16; ST1 [16; 17; 18; 19] 3 16 ]).
(** __asm_poly.S 107-195: [asm_poly_reduce]. *)
Definition reduce_prog : list instr :=
   [
    LDRW 4 1 0; DUP 24 4; ADDX 1 0 0; LD1 [0] 1 4; LD1 [1] 1 4; LD1 [2] 1 4; LD1 [3] 1 4; LD1 [4] 1 4; SRSHR 16 0 23;
    LD1 [5] 1 4; SRSHR 17 1 23; LD1 [6] 1 4; SRSHR 18 2 23; LD1 [7] 1 4; SRSHR 19 3 23; SRSHR 20 4 23; MLSV 0 16 24;
    SRSHR 21 5 23; MLSV 1 17 24; SRSHR 22 6 23; MLSV 2 18 24; SRSHR 23 7 23; MLSV 3 19 24; MLSV 4 20 24; ST1 [0] 0 4;
    MLSV 5 21 24; ST1 [1] 0 4; MLSV 6 22 24; ST1 [2] 0 4; MLSV 7 23 24; ST1 [3] 0 4 ] ++
   loop 7 (
   [
    ST1 [4] 0 4; LD1 [0] 1 4; ST1 [5] 0 4; LD1 [1] 1 4; ST1 [6] 0 4; LD1 [2] 1 4; ST1 [7] 0 4; LD1 [3] 1 4;
    LD1 [4] 1 4; SRSHR 16 0 23; LD1 [5] 1 4; SRSHR 17 1 23; LD1 [6] 1 4; SRSHR 18 2 23; LD1 [7] 1 4; SRSHR 19 3 23;
    SRSHR 20 4 23; MLSV 0 16 24; SRSHR 21 5 23; MLSV 1 17 24; SRSHR 22 6 23; MLSV 2 18 24; SRSHR 23 7 23;
    MLSV 3 19 24; MLSV 4 20 24; ST1 [0] 0 4; MLSV 5 21 24; ST1 [1] 0 4; MLSV 6 22 24; ST1 [2] 0 4; MLSV 7 23 24;
    ST1 [3] 0 4 ]) ++
   [
    ST1 [4] 0 4; ST1 [5] 0 4; ST1 [6] 0 4; ST1 [7] 0 4 ].
(** __asm_poly.S 200-288: [asm_poly_caddq]. *)
Definition caddq_prog : list instr :=
   [
    LDRW 4 1 0; DUP 24 4; ADDX 1 0 0; LD1 [0] 1 4; LD1 [1] 1 4; LD1 [2] 1 4; LD1 [3] 1 4; LD1 [4] 1 4; SSHR 16 0 31;
    LD1 [5] 1 4; SSHR 17 1 31; LD1 [6] 1 4; SSHR 18 2 31; LD1 [7] 1 4; SSHR 19 3 31; SSHR 20 4 31; MLSV 0 16 24;
    SSHR 21 5 31; MLSV 1 17 24; SSHR 22 6 31; MLSV 2 18 24; SSHR 23 7 31; MLSV 3 19 24; MLSV 4 20 24; ST1 [0] 0 4;
    MLSV 5 21 24; ST1 [1] 0 4; MLSV 6 22 24; ST1 [2] 0 4; MLSV 7 23 24; ST1 [3] 0 4 ] ++
   loop 7 (
   [
    ST1 [4] 0 4; LD1 [0] 1 4; ST1 [5] 0 4; LD1 [1] 1 4; ST1 [6] 0 4; LD1 [2] 1 4; ST1 [7] 0 4; LD1 [3] 1 4;
    LD1 [4] 1 4; SSHR 16 0 31; LD1 [5] 1 4; SSHR 17 1 31; LD1 [6] 1 4; SSHR 18 2 31; LD1 [7] 1 4; SSHR 19 3 31;
    SSHR 20 4 31; MLSV 0 16 24; SSHR 21 5 31; MLSV 1 17 24; SSHR 22 6 31; MLSV 2 18 24; SSHR 23 7 31; MLSV 3 19 24;
    MLSV 4 20 24; ST1 [0] 0 4; MLSV 5 21 24; ST1 [1] 0 4; MLSV 6 22 24; ST1 [2] 0 4; MLSV 7 23 24; ST1 [3] 0 4 ]) ++
   [
    ST1 [4] 0 4; ST1 [5] 0 4; ST1 [6] 0 4; ST1 [7] 0 4 ].
(** __asm_poly.S 293-417: [asm_poly_freeze]. *)
Definition freeze_prog : list instr :=
   [
    LDRW 4 1 0; DUP 24 4; ADDX 1 0 0; LD1 [0] 1 4; LD1 [1] 1 4; LD1 [2] 1 4; LD1 [3] 1 4; LD1 [4] 1 4; SRSHR 16 0 23;
    LD1 [5] 1 4; SRSHR 17 1 23; LD1 [6] 1 4; SRSHR 18 2 23; LD1 [7] 1 4; SRSHR 19 3 23; SRSHR 20 4 23; MLSV 0 16 24;
    SRSHR 21 5 23; MLSV 1 17 24; SRSHR 22 6 23; MLSV 2 18 24; SRSHR 23 7 23; MLSV 3 19 24; MLSV 4 20 24;
    SSHR 16 0 31; MLSV 5 21 24; SSHR 17 1 31; MLSV 6 22 24; SSHR 18 2 31; MLSV 7 23 24; SSHR 19 3 31; SSHR 20 4 31;
    MLSV 0 16 24; SSHR 21 5 31; MLSV 1 17 24; SSHR 22 6 31; MLSV 2 18 24; SSHR 23 7 31; MLSV 3 19 24; MLSV 4 20 24;
    ST1 [0] 0 4; MLSV 5 21 24; ST1 [1] 0 4; MLSV 6 22 24; ST1 [2] 0 4; MLSV 7 23 24; ST1 [3] 0 4 ] ++
   loop 8 (
   [
    ST1 [4] 0 4; LD1 [0] 1 4; ST1 [5] 0 4; LD1 [1] 1 4; ST1 [6] 0 4; LD1 [2] 1 4; ST1 [7] 0 4; LD1 [3] 1 4;
    LD1 [4] 1 4; SRSHR 16 0 23; LD1 [5] 1 4; SRSHR 17 1 23; LD1 [6] 1 4; SRSHR 18 2 23; LD1 [7] 1 4; SRSHR 19 3 23;
    SRSHR 20 4 23; MLSV 0 16 24; SRSHR 21 5 23; MLSV 1 17 24; SRSHR 22 6 23; MLSV 2 18 24; SRSHR 23 7 23;
    MLSV 3 19 24; MLSV 4 20 24; SSHR 16 0 31; MLSV 5 21 24; SSHR 17 1 31; MLSV 6 22 24; SSHR 18 2 31; MLSV 7 23 24;
    SSHR 19 3 31; SSHR 20 4 31; MLSV 0 16 24; SSHR 21 5 31; MLSV 1 17 24; SSHR 22 6 31; MLSV 2 18 24; SSHR 23 7 31;
    MLSV 3 19 24; MLSV 4 20 24; ST1 [0] 0 4; MLSV 5 21 24; ST1 [1] 0 4; MLSV 6 22 24; ST1 [2] 0 4; MLSV 7 23 24;
    ST1 [3] 0 4 ]) ++
   [
    ST1 [4] 0 4; ST1 [5] 0 4; ST1 [6] 0 4; ST1 [7] 0 4 ].
(** __asm_poly.S 422-563: [asm_poly_power2round]. *)
Definition power2round_prog : list instr :=
   [
    MOVI 4 1; DUP 28 4; LD1 [0] 2 4; LD1 [1] 2 4; LD1 [2] 2 4; LD1 [3] 2 4; LD1 [20] 2 4; SUBV 4 0 28; LD1 [21] 2 4;
    SUBV 5 1 28; LD1 [22] 2 4; SUBV 6 2 28; LD1 [23] 2 4; SUBV 7 3 28; SUBV 24 20 28; SRSHR 16 4 13; SUBV 25 21 28;
    SRSHR 17 5 13; SUBV 26 22 28; SRSHR 18 6 13; SUBV 27 23 28; SRSHR 19 7 13; SRSHR 28 24 13; ST1 [16] 0 4;
    SRSHR 29 25 13; ST1 [17] 0 4; SRSHR 30 26 13; ST1 [18] 0 4; SRSHR 31 27 13; ST1 [19] 0 4; ST1 [28] 0 4;
    SHL 4 16 13; ST1 [29] 0 4; SHL 5 17 13; ST1 [30] 0 4; SHL 6 18 13; ST1 [31] 0 4; SHL 7 19 13; SHL 24 28 13;
    SUBV 16 0 4; SHL 25 29 13; SUBV 17 1 5; SHL 26 30 13; SUBV 18 2 6; SHL 27 31 13; SUBV 19 3 7; SUBV 28 20 24;
    ST1 [16] 1 4; SUBV 29 21 25; ST1 [17] 1 4; SUBV 30 22 26; ST1 [18] 1 4; SUBV 31 23 27; ST1 [19] 1 4 ] ++
   loop 7 (
   [
    ST1 [28] 1 4; DUP 28 4; LD1 [0] 2 4; ST1 [29] 1 4; LD1 [1] 2 4; ST1 [30] 1 4; LD1 [2] 2 4; ST1 [31] 1 4;
    LD1 [3] 2 4; LD1 [20] 2 4; SUBV 4 0 28; LD1 [21] 2 4; SUBV 5 1 28; LD1 [22] 2 4; SUBV 6 2 28; LD1 [23] 2 4;
    SUBV 7 3 28; SUBV 24 20 28; SRSHR 16 4 13; SUBV 25 21 28; SRSHR 17 5 13; SUBV 26 22 28; SRSHR 18 6 13;
    SUBV 27 23 28; SRSHR 19 7 13; SRSHR 28 24 13; ST1 [16] 0 4; SRSHR 29 25 13; ST1 [17] 0 4; SRSHR 30 26 13;
    ST1 [18] 0 4; SRSHR 31 27 13; ST1 [19] 0 4; ST1 [28] 0 4; SHL 4 16 13; ST1 [29] 0 4; SHL 5 17 13; ST1 [30] 0 4;
    SHL 6 18 13; ST1 [31] 0 4; SHL 7 19 13; SHL 24 28 13; SUBV 16 0 4; SHL 25 29 13; SUBV 17 1 5; SHL 26 30 13;
    SUBV 18 2 6; SHL 27 31 13; SUBV 19 3 7; SUBV 28 20 24; ST1 [16] 1 4; SUBV 29 21 25; ST1 [17] 1 4; SUBV 30 22 26;
    ST1 [18] 1 4; SUBV 31 23 27; ST1 [19] 1 4 ]) ++
   [
    ST1 [28] 1 4; ST1 [29] 1 4; ST1 [30] 1 4; ST1 [31] 1 4 ].
(** __asm_poly.S 733-846: [asm_poly_pointwise_montgomery]. *)
Definition pointwise_prog : list instr :=
   [
    LDRW 20 3 0; LDRW 21 3 1; DUP 30 20; DUP 31 21; LD1 [0] 1 4; LD1 [1] 1 4; LD1 [2] 1 4; LD1 [3] 1 4; LD1 [4] 2 4;
    LD1 [5] 2 4; LD1 [6] 2 4; LD1 [7] 2 4; SMULL 12 0 4; SMULL2 16 0 4; SMULL 13 1 5; SMULL2 17 1 5; SMULL 14 2 6;
    SMULL2 18 2 6; SMULL 15 3 7; SMULL2 19 3 7; UZP1 20 12 16; UZP1 21 13 17; UZP1 22 14 18; UZP1 23 15 19;
    MULV 24 20 31; MULV 25 21 31; MULV 26 22 31; MULV 27 23 31; SMLSL 12 24 30; SMLSL2 16 24 30; SMLSL 13 25 30;
    SMLSL2 17 25 30; SMLSL 14 26 30; SMLSL2 18 26 30; SMLSL 15 27 30; SMLSL2 19 27 30; UZP2 24 12 16; UZP2 25 13 17;
    UZP2 26 14 18; UZP2 27 15 19 ] ++
   loop 15 (
   [
    ST1 [24] 0 4; LD1 [0] 1 4; ST1 [25] 0 4; LD1 [1] 1 4; ST1 [26] 0 4; LD1 [2] 1 4; ST1 [27] 0 4; LD1 [3] 1 4;
    LD1 [4] 2 4; LD1 [5] 2 4; LD1 [6] 2 4; LD1 [7] 2 4; SMULL 12 0 4; SMULL2 16 0 4; SMULL 13 1 5; SMULL2 17 1 5;
    SMULL 14 2 6; SMULL2 18 2 6; SMULL 15 3 7; SMULL2 19 3 7; UZP1 20 12 16; UZP1 21 13 17; UZP1 22 14 18;
    UZP1 23 15 19; MULV 24 20 31; MULV 25 21 31; MULV 26 22 31; MULV 27 23 31; SMLSL 12 24 30; SMLSL2 16 24 30;
    SMLSL 13 25 30; SMLSL2 17 25 30; SMLSL 14 26 30; SMLSL2 18 26 30; SMLSL 15 27 30; SMLSL2 19 27 30; UZP2 24 12 16;
    UZP2 25 13 17; UZP2 26 14 18; UZP2 27 15 19 ]) ++
   [
    ST1 [24] 0 4; ST1 [25] 0 4; ST1 [26] 0 4; ST1 [27] 0 4 ].
(** __asm_poly.S 852-1197: [asm_polyvecl_pointwise_acc_montgomery]. *)
Definition acc_prog : list instr :=
   [
    LDRW 20 3 0; LDRW 21 3 1; ADDX 5 1 256; ADDX 6 2 256; ADDX 7 1 512; ADDX 8 2 512; ADDX 9 1 768; ADDX 10 2 768;
    DUP 30 20; DUP 31 21; LD1 [0] 1 4; LD1 [1] 1 4; LD1 [2] 1 4; LD1 [3] 1 4; LD1 [4] 2 4; LD1 [5] 2 4; LD1 [6] 2 4;
    LD1 [7] 2 4; SMULL 12 0 4; SMULL2 16 0 4; LD1 [0] 5 4; LD1 [4] 6 4; SMULL 13 1 5; SMULL2 17 1 5; LD1 [1] 5 4;
    LD1 [5] 6 4; SMULL 14 2 6; SMULL2 18 2 6; LD1 [2] 5 4; LD1 [6] 6 4; SMULL 15 3 7; SMULL2 19 3 7; LD1 [3] 5 4;
    LD1 [7] 6 4; SMLAL 12 0 4; SMLAL2 16 0 4; LD1 [0] 7 4; LD1 [4] 8 4; SMLAL 13 1 5; SMLAL2 17 1 5; LD1 [1] 7 4;
    LD1 [5] 8 4; SMLAL 14 2 6; SMLAL2 18 2 6; LD1 [2] 7 4; LD1 [6] 8 4; SMLAL 15 3 7; SMLAL2 19 3 7; LD1 [3] 7 4;
    LD1 [7] 8 4; SMLAL 12 0 4; SMLAL2 16 0 4; LD1 [0] 9 4; LD1 [4] 10 4; SMLAL 13 1 5; SMLAL2 17 1 5; LD1 [1] 9 4;
    LD1 [5] 10 4; SMLAL 14 2 6; SMLAL2 18 2 6; LD1 [2] 9 4; LD1 [6] 10 4; SMLAL 15 3 7; SMLAL2 19 3 7; LD1 [3] 9 4;
    LD1 [7] 10 4 ] ++
   loop 15 (
   [
    SMLAL 12 0 4; SMLAL2 16 0 4; SMLAL 13 1 5; SMLAL2 17 1 5; SMLAL 14 2 6; SMLAL2 18 2 6; SMLAL 15 3 7;
    SMLAL2 19 3 7; UZP1 20 12 16; LD1 [0] 1 4; UZP1 21 13 17; LD1 [1] 1 4; UZP1 22 14 18; LD1 [2] 1 4; UZP1 23 15 19;
    LD1 [3] 1 4; MULV 24 20 31; LD1 [4] 2 4; MULV 25 21 31; LD1 [5] 2 4; MULV 26 22 31; LD1 [6] 2 4; MULV 27 23 31;
    LD1 [7] 2 4; SMLSL 12 24 30; SMLSL2 16 24 30; SMLSL 13 25 30; SMLSL2 17 25 30; SMLSL 14 26 30; SMLSL2 18 26 30;
    SMLSL 15 27 30; SMLSL2 19 27 30; UZP2 24 12 16; UZP2 25 13 17; UZP2 26 14 18; UZP2 27 15 19; SMULL 12 0 4;
    SMULL2 16 0 4; LD1 [0] 5 4; ST1 [24] 0 4; LD1 [4] 6 4; SMULL 13 1 5; SMULL2 17 1 5; LD1 [1] 5 4; ST1 [25] 0 4;
    LD1 [5] 6 4; SMULL 14 2 6; SMULL2 18 2 6; LD1 [2] 5 4; ST1 [26] 0 4; LD1 [6] 6 4; SMULL 15 3 7; SMULL2 19 3 7;
    LD1 [3] 5 4; ST1 [27] 0 4; LD1 [7] 6 4; SMLAL 12 0 4; SMLAL2 16 0 4; LD1 [0] 7 4; LD1 [4] 8 4; SMLAL 13 1 5;
    SMLAL2 17 1 5; LD1 [1] 7 4; LD1 [5] 8 4; SMLAL 14 2 6; SMLAL2 18 2 6; LD1 [2] 7 4; LD1 [6] 8 4; SMLAL 15 3 7;
    SMLAL2 19 3 7; LD1 [3] 7 4; LD1 [7] 8 4; SMLAL 12 0 4; SMLAL2 16 0 4; LD1 [0] 9 4; LD1 [4] 10 4; SMLAL 13 1 5;
    SMLAL2 17 1 5; LD1 [1] 9 4; LD1 [5] 10 4; SMLAL 14 2 6; SMLAL2 18 2 6; LD1 [2] 9 4; LD1 [6] 10 4; SMLAL 15 3 7;
    SMLAL2 19 3 7; LD1 [3] 9 4; LD1 [7] 10 4 ]) ++
   [
    SMLAL 12 0 4; SMLAL2 16 0 4; SMLAL 13 1 5; SMLAL2 17 1 5; SMLAL 14 2 6; SMLAL2 18 2 6; SMLAL 15 3 7;
    SMLAL2 19 3 7; UZP1 20 12 16; UZP1 21 13 17; UZP1 22 14 18; UZP1 23 15 19; MULV 24 20 31; MULV 25 21 31;
    MULV 26 22 31; MULV 27 23 31; SMLSL 12 24 30; SMLSL2 16 24 30; SMLSL 13 25 30; SMLSL2 17 25 30; SMLSL 14 26 30;
    SMLSL2 18 26 30; SMLSL 15 27 30; SMLSL2 19 27 30; UZP2 24 12 16; UZP2 25 13 17; UZP2 26 14 18; UZP2 27 15 19;
    ST1 [24] 0 4; ST1 [25] 0 4; ST1 [26] 0 4; ST1 [27] 0 4 ].
Open Scope Z_scope.
(** ntt.h 68-70: [streamlined_CT_negacyclic_table_Q1_extended], pairs (l, h). *)
Definition ct_table : list Z :=
 [
  0; 0; (-915382907); (-3572223); 964937599; 3765607; 963888510; 3761513; (-820383522); (-3201494); (-738955404);
  (-2883726); (-806080660); (-3145678); (-820367122); (-3201430); (-154181397); (-601683); 907762539; 3542485;
  687336873; 2682288; 545785280; 2129892; 964747974; 3764867; (-257592709); (-1005239); 142848732; 557458;
  (-312926867); (-1221177); 0; 0; (-863652652); (-3370349); 923069133; 3602218; 815613168; 3182878; 787459213;
  3073009; 327391679; 1277625; (-675340520); (-2635473); 987079667; 3852015; 449207; 1753; (-495951789); (-1935420);
  (-681503850); (-2659525); (-373072124); (-1455890); 681730119; 2660408; (-456183549); (-1780227); (-15156688);
  (-59148); 710479343; 2772600; 0; 0; (-1041158200); (-4063053); 702264730; 2740543; (-919027554); (-3586446);
  1071989969; 4183372; (-825844983); (-3222807); (-799869667); (-3121440); (-70227934); (-274060); 302950022;
  1182243; 22347069; 87208; 163212680; 636927; (-1016110510); (-3965306); (-1013916752); (-3956745); (-588452222);
  (-2296397); (-841760171); (-3284915); (-952468207); (-3716946); 0; 0; 682491182; 2663378; (-797147778); (-3110818);
  538486762; 2101410; 642926661; 2508980; 519705671; 2028118; 496502727; 1937570; (-977780347); (-3815725);
  (-7126831); (-27812); 210776307; 822541; 258649997; 1009365; (-628875181); (-2454145); (-507246529); (-1979497);
  409185979; 1596822; (-1013967746); (-3956944); (-963363710); (-3759465); 0; 0; (-429120452); (-1674615); 949361686;
  3704823; 297218217; 1159875; 720393920; 2811291; (-764594519); (-2983781); (-284313712); (-1109516); 1065510939;
  4158088; (-431820817); (-1685153); (-873958779); (-3410568); 686309310; 2678278; (-965793731); (-3768948);
  (-909946047); (-3551006); 162963861; 635956; (-64176841); (-250446); (-629190881); (-2455377); 0; 0; (-903139016);
  (-3524442); 101000509; 394148; 237992130; 928749; 391567239; 1528066; 123678909; 482649; 294395108; 1148858;
  (-759080783); (-2962264); (-1062481036); (-4146264); (-454226054); (-1772588); 561940831; 2192938; (-442566669);
  (-1727088); 611800717; 2387513; (-925511710); (-3611750); (-68791907); (-268456); (-814992530); (-3180456); 0; 0;
  (-111244624); (-434125); 280713909; 1095468; (-898510625); (-3506380); (-144935890); (-565603); 43482586; 169688;
  631001801; 2462444; (-854436357); (-3334383); 960233614; 3747250; 588375860; 2296099; 317727459; 1239911;
  (-983611064); (-3838479); 818892658; 3195676; 677264190; 2642980; 321386456; 1254190; (-3181859); (-12417); 0; 0;
  173376332; 676590; 530906624; 2071829; (-1029866791); (-4018989); (-1067647297); (-4166425); (-893898890);
  (-3488383); 509377762; 1987814; (-819295484); (-3197248); 768294260; 2998219; 36345249; 141835; (-22883400);
  (-89301); 643961400; 2513018; (-347191365); (-1354892); 157142369; 613238; (-335754661); (-1310261); (-568482643);
  (-2218467); 0; 0; (-342333886); (-1335936); 830756018; 3241972; 552488273; 2156050; 444930577; 1736313; 60323094;
  235407; (-832852657); (-3250154); 834980303; 3258457; (-117552223); (-458740); (-492511373); (-1921994);
  1035301089; 4040196; (-889718424); (-3472069); 522531086; 2039144; (-481719139); (-1879878); (-209807681);
  (-818761); (-558360247); (-2178965); 0; 0; (-827143915); (-3227876); 875112161; 3415069; 450833045; 1759347;
  (-660934133); (-2579253); 458160776; 1787943; (-612717067); (-2391089); (-577774276); (-2254727); (-415984810);
  (-1623354); 539479988; 2105286; (-608441020); (-2374402); (-521163479); (-2033807); 150224382; 586241;
  (-302276083); (-1179613); 135295244; 527981; (-702999655); (-2743411); 0; 0; 439288460; 1714295; (-209493775);
  (-817536); (-915957677); (-3574466); 892316032; 3482206; (-1071872863); (-4182915); (-333129378); (-1300016);
  (-605279149); (-2362063); (-378477722); (-1476985); 510974714; 1994046; 638402564; 2491325; (-356997292);
  (-1393159); 130156402; 507927; (-304395785); (-1187885); (-185731180); (-724804); (-470097680); (-1834526); 0; 0;
  628833668; 2453983; 962678241; 3756790; (-496048908); (-1935799); (-337655269); (-1317678); 630730945; 2461387;
  777970524; 3035980; 159173408; 621164; (-777397036); (-3033742); (-86720197); (-338420); 678549029; 2647994;
  771248568; 3009748; (-669544140); (-2612853); 1063046068; 4148469; 192079267; 749577; (-1030830548); (-4022750); 0;
  0; 374309300; 1460718; (-439978542); (-1716988); (-1012201926); (-3950053); 999753034; 3901472; (-314332144);
  (-1226661); 749740976; 2925816; 864652284; 3374250; 1020029345; 3980599; 658309618; 2569011; (-413979908);
  (-1615530); 441577800; 1723229; 426738094; 1665318; 519685171; 2028038; 298172236; 1163598; (-863376927);
  (-3369273); 0; 0; (-164673562); (-642628); (-742437332); (-2897314); 818041395; 3192354; 347590090; 1356448;
  (-711287812); (-2775755); 687588511; 2683270; (-712065019); (-2778788); 1023635298; 3994671; (-3043996); (-11879);
  (-351195274); (-1370517); 773976352; 3020393; 861908357; 3363542; 55063046; 214880; 139752717; 545376;
  (-197425671); (-770441); 0; 0; (-918682129); (-3585098); 142694469; 556856; 991769559; 3870317; (-888589898);
  (-3467665); 592665232; 2312838; (-167401858); (-653275); (-117660617); (-459163); 795799901; 3105558; (-282732136);
  (-1103344); 130212265; 508145; (-141890356); (-553718); 220412084; 860144; 879049958; 3430436; 35937555; 140244;
  (-388001774); (-1514152); 0; 0; 721508096; 2815639; 747568486; 2917338; 475038184; 1853806; 89383150; 348812;
  (-84011120); (-327848); 259126110; 1011223; (-603268097); (-2354215); (-559928242); (-2185084); 800464680; 3123762;
  604333585; 2358373; (-561979013); (-2193087); (-772445769); (-3014420); (-439933955); (-1716814); 749801963;
  2926054; (-100631253); (-392707); 0; 0; 585207070; 2283733; 857403734; 3345963; 476219497; 1858416; (-978523985);
  (-3818627); (-492577742); (-1922253); (-573161516); (-2236726); 447030292; 1744507; (-77645096); (-303005);
  904878186; 3531229; (-1018462631); (-3974485); (-967019376); (-3773731); 486888731; 1900052; (-200355636);
  (-781875); 270210213; 1054478; (-187430119); (-731434); 0; 0 ].
(** ntt.h 72-74: [streamlined_inv_CT_table_Q1_extended]. *)
Definition inv_table : list Z :=
 [
  0; 0; 915382907; 3572223; (-963888510); (-3761513); (-964937599); (-3765607); 820367122; 3201430; 806080660;
  3145678; 738955404; 2883726; 820383522; 3201494; 312926867; 1221177; (-142848732); (-557458); 257592709; 1005239;
  (-964747974); (-3764867); (-545785280); (-2129892); (-687336873); (-2682288); (-907762539); (-3542485); 154181397;
  601683; 0; 0; (-585207070); (-2283733); (-476219497); (-1858416); (-857403734); (-3345963); (-447030292);
  (-1744507); 573161516; 2236726; 492577742; 1922253; 978523985; 3818627; 187430119; 731434; (-270210213);
  (-1054478); 200355636; 781875; (-486888731); (-1900052); 967019376; 3773731; 1018462631; 3974485; (-904878186);
  (-3531229); 77645096; 303005; 0; 0; (-721508096); (-2815639); (-475038184); (-1853806); (-747568486); (-2917338);
  603268097; 2354215; (-259126110); (-1011223); 84011120; 327848; (-89383150); (-348812); 100631253; 392707;
  (-749801963); (-2926054); 439933955; 1716814; 772445769; 3014420; 561979013; 2193087; (-604333585); (-2358373);
  (-800464680); (-3123762); 559928242; 2185084; 0; 0; 918682129; 3585098; (-991769559); (-3870317); (-142694469);
  (-556856); 117660617; 459163; 167401858; 653275; (-592665232); (-2312838); 888589898; 3467665; 388001774; 1514152;
  (-35937555); (-140244); (-879049958); (-3430436); (-220412084); (-860144); 141890356; 553718; (-130212265);
  (-508145); 282732136; 1103344; (-795799901); (-3105558); 0; 0; 164673562; 642628; (-818041395); (-3192354);
  742437332; 2897314; 712065019; 2778788; (-687588511); (-2683270); 711287812; 2775755; (-347590090); (-1356448);
  197425671; 770441; (-139752717); (-545376); (-55063046); (-214880); (-861908357); (-3363542); (-773976352);
  (-3020393); 351195274; 1370517; 3043996; 11879; (-1023635298); (-3994671); 0; 0; (-374309300); (-1460718);
  1012201926; 3950053; 439978542; 1716988; (-864652284); (-3374250); (-749740976); (-2925816); 314332144; 1226661;
  (-999753034); (-3901472); 863376927; 3369273; (-298172236); (-1163598); (-519685171); (-2028038); (-426738094);
  (-1665318); (-441577800); (-1723229); 413979908; 1615530; (-658309618); (-2569011); (-1020029345); (-3980599); 0;
  0; (-628833668); (-2453983); 496048908; 1935799; (-962678241); (-3756790); (-159173408); (-621164); (-777970524);
  (-3035980); (-630730945); (-2461387); 337655269; 1317678; 1030830548; 4022750; (-192079267); (-749577);
  (-1063046068); (-4148469); 669544140; 2612853; (-771248568); (-3009748); (-678549029); (-2647994); 86720197;
  338420; 777397036; 3033742; 0; 0; (-439288460); (-1714295); 915957677; 3574466; 209493775; 817536; 605279149;
  2362063; 333129378; 1300016; 1071872863; 4182915; (-892316032); (-3482206); 470097680; 1834526; 185731180; 724804;
  304395785; 1187885; (-130156402); (-507927); 356997292; 1393159; (-638402564); (-2491325); (-510974714);
  (-1994046); 378477722; 1476985; 0; 0; 827143915; 3227876; (-450833045); (-1759347); (-875112161); (-3415069);
  577774276; 2254727; 612717067; 2391089; (-458160776); (-1787943); 660934133; 2579253; 702999655; 2743411;
  (-135295244); (-527981); 302276083; 1179613; (-150224382); (-586241); 521163479; 2033807; 608441020; 2374402;
  (-539479988); (-2105286); 415984810; 1623354; 0; 0; 342333886; 1335936; (-552488273); (-2156050); (-830756018);
  (-3241972); (-834980303); (-3258457); 832852657; 3250154; (-60323094); (-235407); (-444930577); (-1736313);
  558360247; 2178965; 209807681; 818761; 481719139; 1879878; (-522531086); (-2039144); 889718424; 3472069;
  (-1035301089); (-4040196); 492511373; 1921994; 117552223; 458740; 0; 0; (-173376332); (-676590); 1029866791;
  4018989; (-530906624); (-2071829); 819295484; 3197248; (-509377762); (-1987814); 893898890; 3488383; 1067647297;
  4166425; 568482643; 2218467; 335754661; 1310261; (-157142369); (-613238); 347191365; 1354892; (-643961400);
  (-2513018); 22883400; 89301; (-36345249); (-141835); (-768294260); (-2998219); 0; 0; 111244624; 434125; 898510625;
  3506380; (-280713909); (-1095468); 854436357; 3334383; (-631001801); (-2462444); (-43482586); (-169688); 144935890;
  565603; 3181859; 12417; (-321386456); (-1254190); (-677264190); (-2642980); (-818892658); (-3195676); 983611064;
  3838479; (-317727459); (-1239911); (-588375860); (-2296099); (-960233614); (-3747250); 0; 0; 903139016; 3524442;
  (-237992130); (-928749); (-101000509); (-394148); 759080783; 2962264; (-294395108); (-1148858); (-123678909);
  (-482649); (-391567239); (-1528066); 814992530; 3180456; 68791907; 268456; 925511710; 3611750; (-611800717);
  (-2387513); 442566669; 1727088; (-561940831); (-2192938); 454226054; 1772588; 1062481036; 4146264; 0; 0; 429120452;
  1674615; (-297218217); (-1159875); (-949361686); (-3704823); (-1065510939); (-4158088); 284313712; 1109516;
  764594519; 2983781; (-720393920); (-2811291); 629190881; 2455377; 64176841; 250446; (-162963861); (-635956);
  909946047; 3551006; 965793731; 3768948; (-686309310); (-2678278); 873958779; 3410568; 431820817; 1685153; 0; 0;
  (-682491182); (-2663378); (-538486762); (-2101410); 797147778; 3110818; 977780347; 3815725; (-496502727);
  (-1937570); (-519705671); (-2028118); (-642926661); (-2508980); 963363710; 3759465; 1013967746; 3956944;
  (-409185979); (-1596822); 507246529; 1979497; 628875181; 2454145; (-258649997); (-1009365); (-210776307);
  (-822541); 7126831; 27812; 0; 0; 1041158200; 4063053; 919027554; 3586446; (-702264730); (-2740543); 70227934;
  274060; 799869667; 3121440; 825844983; 3222807; (-1071989969); (-4183372); 952468207; 3716946; 841760171; 3284915;
  588452222; 2296397; 1013916752; 3956745; 1016110510; 3965306; (-163212680); (-636927); (-22347069); (-87208);
  (-302950022); (-1182243); 0; 0; 863652652; 3370349; (-815613168); (-3182878); (-923069133); (-3602218);
  (-987079667); (-3852015); 675340520; 2635473; (-327391679); (-1277625); (-787459213); (-3073009); (-710479343);
  (-2772600); 15156688; 59148; 456183549; 1780227; (-681730119); (-2660408); 373072124; 1455890; 681503850; 2659525;
  495951789; 1935420; (-449207); (-1753); 0; 0 ].
(** ntt.h 60-66: [constants]; NTT_params.h. *)
Definition constants64 : list Z :=
 [
  8380417; (-58728449); 256; 1; 4197891; 16382; (-75523344); (-294725); 0; 0; 0; 0; 0; 0; 0; 0 ].
(** poly.c 45-47, polyvec.c 39-41: [montgomery_const], [l_montgomery_const]. *)
Definition mont_const : list Z := [8380417; 58728449; 0; 0].
