(** * A64Sym: symbolic execution of the AArch64 transforms.

    A symbolic lane says which intermediate value of a scalar transform a register lane holds.
    The scalar transform is the network of ntt.c with the Barrett multiplications of the assembly
    (macros_common.inc: mul, sqrdmulh, mls) in place of Montgomery ones; [A64SymOk.v] proves that
    the programs compute exactly that, [A64Ntt.v] that it agrees with ntt.c modulo q. *)
From Coq Require Import ZArith List Lia Bool.
From Verif Require Import Base Bits DilArith DilNtt AvxMachine AvxSym A64Machine.
Import ListNotations.
Open Scope Z_scope.

(** ** The scalar transform *)
(** mul; sqrdmulh; mls: x * h minus the rounded quotient times q. *)
Definition bmul (h l x : Z) : Z := i32 (i32 (x * h) - sqrdmulh x l * Q).
(** The plain twiddle factor behind entry [i] of the table of ntt.c (which holds it times 2^32),
    centred, and its quotient h * 2^31 / q, rounded. *)
Definition hz (i : Z) : Z := let r := (zeta i * RINV) mod Q in if 4190208 <? r then r - Q else r.
Definition lz (i : Z) : Z := (hz i * 4294967296 + Q) / (2 * Q).
Definition QHALF : Z := 4190208.
(** NTT_params.h 63-77: the scaling by 1/256 and the last twiddle factor, merged. *)
Definition NR_l : Z := 4197891.
Definition NR_h : Z := 16382.
Definition NW_l : Z := -75523344.
Definition NW_h : Z := -294725.
Definition sr23 (x : Z) : Z := Z.shiftr (x + 4194304) 23.
(** __asm_iNTT.S 181-: cmge, cmge, sub, mla. *)
Definition center64 (x : Z) : Z :=
  i32 (x + i32 ((if QHALF <=? x then -1 else 0) - (if x <=? - QHALF then -1 else 0)) * Q).

Definition ftw (k : nat) (j : Z) : Z := 128 / flen k + j / (2 * flen k).
(** Forward layer [k] at index [j]. *)
Definition fstage (k : nat) (x : Z -> Z) (j : Z) : Z :=
  let n := flen k in
  if j mod (2 * n) <? n then i32 (x j + bmul (hz (ftw k j)) (lz (ftw k j)) (x (j + n)))
  else i32 (x (j - n) - bmul (hz (ftw k j)) (lz (ftw k j)) (x j)).
Fixpoint fval (a : Z -> Z) (k : nat) : Z -> Z :=
  match k with O => a | S k' => fstage k' (fval a k') end.
(** Inverse stage [s] at index [j]: lengths 1, 2, 4, 8, then a reduction of half the
    coefficients, then lengths 16, 32, 64. *)
Definition slen (s : nat) : Z := nth s [1; 2; 4; 8; 0; 16; 32; 64; 128] 0.
Definition itw (s : nat) (j : Z) : Z := 256 / slen s - 1 - j / (2 * slen s).
Definition istage (s : nat) (x : Z -> Z) (j : Z) : Z :=
  if Nat.eqb s 4 then (if j mod 16 <? 8 then i32 (x j - sr23 (x j) * Q) else x j)
  else let n := slen s in
    if j mod (2 * n) <? n then i32 (x j + x (j + n))
    else bmul (- hz (itw s j)) (- lz (itw s j)) (i32 (x (j - n) - x j)).
Fixpoint ival (a : Z -> Z) (s : nat) : Z -> Z :=
  match s with O => a | S s' => istage s' (ival a s') end.
Definition last64 (x : Z -> Z) (j : Z) : Z :=
  if j <? 128 then bmul NR_h NR_l (i32 (x j + x (j + 128)))
  else bmul NW_h NW_l (i32 (x (j - 128) - x j)).

(** ** Symbols *)
Inductive atom64 : Type :=
| MF (k : nat) (j : Z)          (* fval k j *)
| MI (s : nat) (j : Z)          (* ival s j, s <= 8 *)
| MS (j : Z)                    (* the sum of the last layer *)
| MD (s : nat) (j : Z)          (* the difference inside stage s *)
| ME (j : Z)                    (* last64 j *)
| MR (j : Z).                   (* center64 (last64 j) *)
Definition atom64_eqb (a b : atom64) : bool :=
  match a, b with
  | MF k j, MF k' j' | MI k j, MI k' j' | MD k j, MD k' j' => Nat.eqb k k' && Z.eqb j j'
  | MS j, MS j' | ME j, ME j' | MR j, MR j' => Z.eqb j j'
  | _, _ => false
  end.
Inductive sym64 : Type :=
| TC (z : Z) | TA (a : atom64)
| TM (a : atom64) (z : Z)            (* low half of a * z *)
| TR (a : atom64) (z : Z)            (* sqrdmulh a z *)
| TB (a : atom64) (h l : Z)          (* bmul h l a *)
| TS (a : atom64)                    (* srshr #23 *)
| TG (a : atom64) | TL (a : atom64)  (* cmge a QHALF; cmge -QHALF a *)
| TD (a : atom64)                    (* their difference *)
| TX.

Definition fpair (k : nat) (j j' : Z) : bool :=
  let n := flen k in
  Nat.ltb k 8 && Z.eqb j' (j + n) && Z.leb 0 j && Z.ltb j 256 && Z.ltb (j mod (2 * n)) n.
Definition ipair (s : nat) (j : Z) : bool :=
  let n := slen s in
  Nat.ltb s 8 && negb (Nat.eqb s 4) && Z.leb 0 j && Z.ltb j 256 && Z.ltb (j mod (2 * n)) n.
Definition low128 (j : Z) : bool := Z.leb 0 j && Z.ltb j 128.
(** Half of the coefficients pass the reduction stage untouched. *)
Definition norm_i (s : nat) (j : Z) : atom64 :=
  if Nat.eqb s 4 && negb (j mod 16 <? 8) then MI 5 j else MI s j.
Definition norm_b (a : atom64) (h l : Z) : sym64 :=
  match a with
  | MF _ _ => TB a h l
  | MD s j =>
      if Nat.eqb s 8 then
        if low128 j && Z.eqb h NW_h && Z.eqb l NW_l then TA (ME (j + 128)) else TX
      else if ipair s j && Z.eqb h (- hz (itw s j)) && Z.eqb l (- lz (itw s j)) then TA (norm_i (S s) (j + slen s)) else TX
  | MS j => if low128 j && Z.eqb h NR_h && Z.eqb l NR_l then TA (ME j) else TX
  | _ => TX
  end.
Definition t_mul (x y : sym64) : sym64 := match x, y with TA a, TC z => TM a z | _, _ => TX end.
Definition t_rd (x y : sym64) : sym64 := match x, y with TA a, TC z => TR a z | _, _ => TX end.
Definition t_mls (d x y : sym64) : sym64 :=
  match d, x, y with
  | TM a h, TR b l, TC q => if atom64_eqb a b && Z.eqb q Q then norm_b a h l else TX
  | TA (MI s j), TS b, TC q =>
      if atom64_eqb (MI s j) b && Z.eqb q Q && Nat.eqb s 4 && (j mod 16 <? 8) then TA (MI 5 j) else TX
  | _, _, _ => TX
  end.
Definition t_mla (d x y : sym64) : sym64 :=
  match d, x, y with
  | TA (ME j), TD b, TC q => if atom64_eqb (ME j) b && Z.eqb q Q then TA (MR j) else TX
  | _, _, _ => TX
  end.
Definition ftw_ok (k : nat) (j h l : Z) : bool := Z.eqb h (hz (ftw k j)) && Z.eqb l (lz (ftw k j)).
Definition t_add (x y : sym64) : sym64 :=
  match x, y with
  | TA (MF k j), TB (MF k' j') h l =>
      if Nat.eqb k k' && fpair k j j' && ftw_ok k j h l then TA (MF (S k) j) else TX
  | TA (MI s j), TA (MI s' j') =>
      if Nat.eqb s s' && Z.eqb j' (j + slen s) then
        if Nat.eqb s 8 then if low128 j then TA (MS j) else TX
        else if ipair s j then TA (norm_i (S s) j) else TX
      else TX
  | _, _ => TX
  end.
Definition t_sub (x y : sym64) : sym64 :=
  match x, y with
  | TA (MF k j), TB (MF k' j') h l =>
      if Nat.eqb k k' && fpair k j j' && ftw_ok k j h l then TA (MF (S k) j') else TX
  | TA (MI s j), TA (MI s' j') => if Nat.eqb s s' && Z.eqb j' (j + slen s) then TA (MD s j) else TX
  | TG a, TL b => if atom64_eqb a b then TD a else TX
  | _, _ => TX
  end.
Definition t_cmge (x y : sym64) : sym64 :=
  match x, y with
  | TA a, TC z => if Z.eqb z QHALF then TG a else TX
  | TC z, TA a => if Z.eqb z (- QHALF) then TL a else TX
  | _, _ => TX
  end.
Definition slane64 : lane64 sym64 := {|
  n_const := TC; n_add := t_add; n_sub := t_sub; n_mul := t_mul; n_rdmulh := t_rd; n_mls := t_mls; n_mla := t_mla;
  n_srshr := fun n x => match x with TA a => if Z.eqb n 23 then TS a else TX | _ => TX end;
  n_sshr := fun _ _ => TX; n_shl := fun _ _ => TX; n_cmge := t_cmge;
  n_smull := fun _ _ => (TX, TX); n_smlal := fun _ _ _ => (TX, TX); n_smlsl := fun _ _ _ => (TX, TX);
  n_lsr1 := fun x => match x with TC z => TC (n_lsr1 zlane64 z) | _ => TX end;
  n_neg := fun x => match x with TC z => TC (n_neg zlane64 z) | _ => TX end |}.

Definition svregs : list (list sym64) := repeat (repeat TX 4) 32.
(** The arguments of the four transforms: the array, the table, [constants]. *)
Definition srun64 (p : list instr) (table : list Z) (a : list sym64) : option (list (list sym64)) :=
  leave (run64 slane64 p (enter svregs [(0, 0); (1, 0); (2, 0)]%nat (repeat TX 28) [a; map TC table; map TC constants64])).
