(** * A64Elem: the coefficient-wise programs of __asm_poly.S.

    Pointwise products, accumulated products, reductions and Power2Round compute, coefficient by
    coefficient and for every input, the same integers as the portable loops, and stay inside
    their arrays; asm_poly_freeze does not. *)
From Coq Require Import ZArith List Lia Bool.
From Verif Require Import Base Bits SaberPoly DilArith DilNtt DilNttProof DilPoly DilOps
  AvxMachine AvxSym AvxSymOk AvxNtt AvxPoint A64Machine A64Rel A64Sym A64SymOk A64Ntt.
Import ListNotations.
Open Scope Z_scope.

(** ** Symbols *)
Inductive es : Type :=
| EC (z : Z) | EV (a : nat) (j : Z)         (* a constant; word j of array a on entry *)
| ELo (b n : nat) (j : Z) | EHi (b n : nat) (j : Z)
    (* halves of the sum of n products at j, j + 256, ... of array 1 and array b *)
| EMu (b n : nat) (j : Z)                   (* its low half times q^-1 *)
| ERh (b n : nat) (j : Z)                   (* the Montgomery reduction *)
| ES1 (j : Z) | ER (j : Z)                  (* srshr #23 of array 0; array 0 reduced *)
| ES2 (j : Z) | EA (j : Z)                  (* sshr #31; caddq *)
| EP1 (a : nat) (j : Z) | EP2 (a : nat) (j : Z) | EP3 (a : nat) (j : Z) | EP4 (a : nat) (j : Z)  (* the steps of power2round *)
| EX.
Definition e_sub (x y : es) : es :=
  match x, y with
  | EV a j, EC z => if Z.eqb z 1 then EP1 a j else EX
  | EV a j, EP3 a' j' => if Nat.eqb a a' && Z.eqb j j' then EP4 a j else EX
  | _, _ => EX
  end.
Definition e_mls (d x y : es) : es :=
  match d, x, y with
  | EV a j, ES1 j', EC z => if Nat.eqb a 0 && Z.eqb j j' && Z.eqb z Q then ER j else EX
  | EV a j, ES2 j', EC z => if Nat.eqb a 0 && Z.eqb j j' && Z.eqb z Q then EA j else EX
  | _, _, _ => EX
  end.
Definition e_srshr (n : Z) (x : es) : es :=
  match x with
  | EV a j => if Nat.eqb a 0 && Z.eqb n 23 then ES1 j else EX
  | EP1 a j => if Z.eqb n 13 then EP2 a j else EX
  | _ => EX
  end.
Definition e_sshr (n : Z) (x : es) : es :=
  match x with EV a j => if Nat.eqb a 0 && Z.eqb n 31 then ES2 j else EX | _ => EX end.
Definition e_shl (n : Z) (x : es) : es := match x with EP2 a j => if Z.eqb n 13 then EP3 a j else EX | _ => EX end.
Definition e_mul (x y : es) : es := match x, y with ELo b n j, EC z => if Z.eqb z QINV then EMu b n j else EX | _, _ => EX end.
Definition e_smull (x y : es) : es * es :=
  match x, y with
  | EV a j, EV b j' => if Nat.eqb a 1 && Z.eqb j j' then (ELo b 1 j, EHi b 1 j) else (EX, EX)
  | _, _ => (EX, EX)
  end.
Definition e_smlal (d : es * es) (x y : es) : es * es :=
  match d, x, y with
  | (ELo b n j, EHi b' n' j'), EV a i, EV b'' i' =>
      if Nat.eqb a 1 && Nat.eqb b b' && Nat.eqb b b'' && Nat.eqb n n' && Z.eqb j j' && Z.eqb i (j + 256 * Z.of_nat n) && Z.eqb i i'
      then (ELo b (S n) j, EHi b (S n) j) else (EX, EX)
  | _, _, _ => (EX, EX)
  end.
Definition e_smlsl (d : es * es) (x y : es) : es * es :=
  match d, x, y with
  | (ELo b n j, EHi b' n' j'), EMu b'' n'' j'', EC z =>
      if Nat.eqb b b' && Nat.eqb b b'' && Nat.eqb n n' && Nat.eqb n n'' && Z.eqb j j' && Z.eqb j j'' && Z.eqb z Q
      then (EX, ERh b n j) else (EX, EX)
  | _, _, _ => (EX, EX)
  end.
Definition elane : lane64 es := {|
  n_const := EC; n_add := fun _ _ => EX; n_sub := e_sub; n_mul := e_mul; n_rdmulh := fun _ _ => EX; n_mls := e_mls;
  n_mla := fun _ _ _ => EX; n_srshr := e_srshr; n_sshr := e_sshr; n_shl := e_shl; n_cmge := fun _ _ => EX;
  n_smull := e_smull; n_smlal := e_smlal; n_smlsl := e_smlsl;
  n_lsr1 := fun _ => EX; n_neg := fun _ => EX |}.

(** ** What they stand for *)
Definition red23 (x : Z) : Z := i32 (x - sr23 x * Q).
Definition addq31 (x : Z) : Z := i32 (x - Z.shiftr x 31 * Q).
Definition p2r_hi (x : Z) : Z := Z.shiftr (i32 (x - 1) + 4096) 13.
Definition p2r_lo (x : Z) : Z := i32 (x - i32 (Z.shiftl (p2r_hi x) 13)).
Section Den.
Variable M : nat -> Z -> Z.
(** The sum of [n] products. *)
Fixpoint dotn (b n : nat) (j : Z) : Z :=
  match n with O => 0 | S n' => dotn b n' j + M 1 (j + 256 * Z.of_nat n') * M b (j + 256 * Z.of_nat n') end.
Definition erel (t : es) (v : Z) : Prop :=
  match t with
  | EC z => v = z
  | EV a j => v = M a j
  | ELo b n j => v = i32 (dotn b n j)
  | EHi b n j => v = i32 (Z.shiftr (dotn b n j) 32)
  | EMu b n j => v = i32 (dotn b n j * QINV)
  | ERh b n j => v = mred (dotn b n j)
  | ES1 j => v = sr23 (M 0 j)
  | ER j => v = red23 (M 0 j)
  | ES2 j => v = Z.shiftr (M 0 j) 31
  | EA j => v = addq31 (M 0 j)
  | EP1 a j => v = i32 (M a j - 1)
  | EP2 a j => v = p2r_hi (M a j)
  | EP3 a j => v = i32 (Z.shiftl (p2r_hi (M a j)) 13)
  | EP4 a j => v = p2r_lo (M a j)
  | EX => True
  end.
Ltac beq := repeat match goal with
  | H : _ && _ = true |- _ => apply andb_true_iff in H; destruct H
  | H : Nat.eqb _ _ = true |- _ => apply Nat.eqb_eq in H; subst
  | H : Z.eqb _ _ = true |- _ => apply Z.eqb_eq in H; subst
  end.
Lemma e_smlal_ok : forall d d' x x' y y', R2' erel d d' -> erel x x' -> erel y y' -> R2' erel (e_smlal d x y) (n_smlal zlane64 d' x' y').
Proof.
  intros [lo hi] [lo' hi'] x x' y y' [Hl Hh] Hx Hy. cbn [fst snd] in *. unfold e_smlal.
  destruct lo as [| |b n j| | | | | | | | | | | |]; try (split; exact Logic.I).
  destruct hi as [| | |b' n' j'| | | | | | | | | | |]; try (split; exact Logic.I).
  destruct x as [|a i| | | | | | | | | | | | |]; try (split; exact Logic.I). destruct y as [|b'' i'| | | | | | | | | | | | |]; try (split; exact Logic.I).
  destruct (_ && _) eqn:E; [|split; exact Logic.I]. rewrite !andb_true_iff, !Nat.eqb_eq, !Z.eqb_eq in E.
  destruct E as ((((((E1 & E2) & E3) & E4) & E5) & E6) & E7). subst a b' b'' n' j' i'. cbn [erel] in Hl, Hh, Hx, Hy.
  cbn [n_smlal zlane64]. destruct (q64_split (dotn b n j)) as [k Hk]. unfold split64 in Hk at 1. rewrite <- Hl, <- Hh in Hk. rewrite Hk.
  replace (dotn b n j + k * 18446744073709551616 + x' * y') with (dotn b (S n) j + k * 18446744073709551616)
    by (cbn [dotn]; rewrite Hx, Hy, E6; ring).
  rewrite split_eqm. split; reflexivity.
Qed.
Lemma e_smlsl_ok : forall d d' x x' y y', R2' erel d d' -> erel x x' -> erel y y' -> R2' erel (e_smlsl d x y) (n_smlsl zlane64 d' x' y').
Proof.
  intros [lo hi] [lo' hi'] x x' y y' [Hl Hh] Hx Hy. cbn [fst snd] in *. unfold e_smlsl.
  destruct lo as [| |b n j| | | | | | | | | | | |]; try (split; exact Logic.I).
  destruct hi as [| | |b' n' j'| | | | | | | | | | |]; try (split; exact Logic.I).
  destruct x as [| | | |b'' n'' j''| | | | | | | | | |]; try (split; exact Logic.I). destruct y as [z| | | | | | | | | | | | | |]; try (split; exact Logic.I).
  destruct (_ && _) eqn:E; [|split; exact Logic.I]. rewrite !andb_true_iff, !Nat.eqb_eq, !Z.eqb_eq in E.
  destruct E as ((((((E1 & E2) & E3) & E4) & E5) & E6) & E7). subst b' b'' n' n'' j' j'' z. cbn [erel] in Hl, Hh, Hx, Hy.
  cbn [n_smlsl zlane64]. destruct (q64_split (dotn b n j)) as [k Hk]. unfold split64 in Hk at 1. rewrite <- Hl, <- Hh in Hk. rewrite Hk.
  replace (dotn b n j + k * 18446744073709551616 - x' * y') with (dotn b n j - x' * y' + k * 18446744073709551616) by ring.
  rewrite split_eqm. split; [exact Logic.I|]. cbn [fst snd split64 erel]. unfold mred. rewrite Hx, Hy. reflexivity.
Qed.
Theorem elane_related : lanes_related elane zlane64 erel.
Proof.
  split; try (intros; exact Logic.I).
  - intro z. exact eq_refl.
  - intros x x' y y' Hx Hy. cbn [n_sub elane zlane64]. unfold e_sub. destruct x; try exact Logic.I. destruct y; try exact Logic.I.
    + destruct (_ =? _) eqn:E; [|exact Logic.I]. beq. cbn [erel] in *. rewrite Hx, Hy. reflexivity.
    + destruct (_ && _) eqn:E; [|exact Logic.I]. beq. cbn [erel] in *. rewrite Hx, Hy. reflexivity.
  - intros x x' y y' Hx Hy. cbn [n_mul elane zlane64]. unfold e_mul. destruct x; try exact Logic.I. destruct y; try exact Logic.I.
    destruct (_ =? _) eqn:E; [|exact Logic.I]. beq. cbn [erel] in *. rewrite Hx, Hy. 
    destruct (i32_cong (dotn b n j)) as [k Hk]. rewrite Hk.
    replace ((dotn b n j + k * 4294967296) * QINV) with (dotn b n j * QINV + k * QINV * 4294967296) by ring. apply i32_eqm.
  - intros d d' x x' y y' Hd Hx Hy. cbn [n_mls elane zlane64]. unfold e_mls. destruct d; try exact Logic.I.
    destruct x; try exact Logic.I; (destruct y; try exact Logic.I); (destruct (_ && _) eqn:E; [|exact Logic.I]); beq;
      cbn [erel] in *; rewrite Hd, Hx, Hy; reflexivity.
  - intros n x x' Hx. cbn [n_srshr elane zlane64]. unfold e_srshr. destruct x; try exact Logic.I.
    + destruct (_ && _) eqn:E; [|exact Logic.I]. beq. cbn [erel] in *. rewrite Hx. reflexivity.
    + destruct (_ =? _) eqn:E; [|exact Logic.I]. beq. cbn [erel] in *. rewrite Hx. reflexivity.
  - intros n x x' Hx. cbn [n_sshr elane zlane64]. unfold e_sshr. destruct x; try exact Logic.I.
    destruct (_ && _) eqn:E; [|exact Logic.I]. beq. cbn [erel] in *. rewrite Hx. reflexivity.
  - intros n x x' Hx. cbn [n_shl elane zlane64]. unfold e_shl. destruct x; try exact Logic.I.
    destruct (_ =? _) eqn:E; [|exact Logic.I]. beq. cbn [erel] in *. rewrite Hx. reflexivity.
  - intros x x' y y' Hx Hy. cbn [n_smull elane zlane64]. unfold e_smull. destruct x; try (split; exact Logic.I). destruct y; try (split; exact Logic.I).
    destruct (_ && _) eqn:E; [|split; exact Logic.I]. beq. cbn [erel] in *.
    split; cbn [fst snd split64 erel dotn]; rewrite Hx, Hy; cbn [Z.of_nat]; rewrite Z.mul_0_r, Z.add_0_r, Z.add_0_l; reflexivity.
  - apply e_smlal_ok.
  - apply e_smlsl_ok.
Qed.
End Den.

(** ** The runs *)
Definition vars (a n : nat) : list es := map (fun j => EV a (Z.of_nat j)) (seq 0 n).
Definition evregs : list (list es) := repeat (repeat EX 4) 32.
Definition erun (p : list instr) (args : list nat) (arrays : list (list es)) : option (list (list es)) :=
  leave (run64 elane p (enter evregs (map (fun a => (a, 0%nat)) args) (repeat EX 28) arrays)).
Definition ecst : list es := map EC mont_const.
Definition out (f : Z -> es) : list es := map (fun j => f (Z.of_nat j)) (seq 0 256).
Lemma erun_pointwise : erun pointwise_prog [0; 1; 2; 3]%nat [vars 0 256; vars 1 256; vars 2 256; ecst] =
  Some [out (ERh 2 1); vars 1 256; vars 2 256; ecst].
Proof. vm_compute. reflexivity. Qed.
Lemma erun_pointwise_alias : erun pointwise_prog [0; 1; 0; 2]%nat [vars 0 256; vars 1 256; ecst] =
  Some [out (ERh 0 1); vars 1 256; ecst].
Proof. vm_compute. reflexivity. Qed.
Lemma erun_acc : erun acc_prog [0; 1; 2; 3]%nat [vars 0 256; vars 1 1024; vars 2 1024; ecst] =
  Some [out (ERh 2 4); vars 1 1024; vars 2 1024; ecst].
Proof. vm_compute. reflexivity. Qed.
Lemma erun_reduce : erun reduce_prog [0; 1]%nat [vars 0 256; ecst] = Some [out ER; ecst].
Proof. vm_compute. reflexivity. Qed.
Lemma erun_caddq : erun caddq_prog [0; 1]%nat [vars 0 256; ecst] = Some [out EA; ecst].
Proof. vm_compute. reflexivity. Qed.
Lemma erun_power2round : erun power2round_prog [0; 1; 2]%nat [vars 0 256; vars 1 256; vars 2 256] =
  Some [out (EP2 2); out (EP4 2); vars 2 256].
Proof. vm_compute. reflexivity. Qed.
Lemma erun_power2round_alias : erun power2round_prog [0; 1; 0]%nat [vars 0 256; vars 1 256] =
  Some [out (EP2 0); out (EP4 0)].
Proof. vm_compute. reflexivity. Qed.

(** ** The calls *)
(** A call with pointers to (the starts of) some arrays; [None] if some access leaves its array. *)
Definition elem_call (p : list instr) (vs : list (list Z)) (junk : list Z) (args : list nat) (arrays : list (list Z)) : option (list (list Z)) :=
  leave (run64 zlane64 p (enter vs (map (fun a => (a, 0%nat)) args) junk arrays)).
Lemma erel_svregs : forall M vs, vregs_ok vs -> Forall2 (Forall2 (erel M)) evregs vs.
Proof.
  intros M vs [L F]. unfold evregs. rewrite <- L. clear L. induction F as [|v vs Hv F IH]; cbn [length repeat]; constructor; auto.
  cbv beta in Hv. change (Forall2 (erel M) (repeat EX 4) v). rewrite <- Hv. clear. induction v as [|x v IH]; cbn; constructor; [exact Logic.I|exact IH].
Qed.
Lemma erel_junk : forall M (l : list Z), Forall2 (erel M) (repeat EX (length l)) l.
Proof. induction l as [|x l IH]; cbn; constructor; [exact Logic.I|exact IH]. Qed.
Lemma erel_consts : forall M (l : list Z), Forall2 (erel M) (map EC l) l.
Proof. induction l as [|x l IH]; cbn; constructor; [exact eq_refl|exact IH]. Qed.
Lemma erel_vars : forall M a l, (forall p, (p < length l)%nat -> M a (Z.of_nat p) = nth p l 0) -> Forall2 (erel M) (vars a (length l)) l.
Proof.
  intros M a l H. unfold vars. assert (G : forall l s, (forall p, (p < length l)%nat -> M a (Z.of_nat (s + p)) = nth p l 0) ->
    Forall2 (erel M) (map (fun j => EV a (Z.of_nat j)) (seq s (length l))) l).
  { clear. induction l as [|x l IH]; intros s H; cbn [length seq map]; constructor.
    - cbn [erel]. specialize (H 0%nat ltac:(cbn; lia)). rewrite Nat.add_0_r in H. cbn in H. congruence.
    - apply IH. intros p Hp. specialize (H (S p) ltac:(cbn; lia)). cbn [nth] in H. rewrite <- H. f_equal. lia. }
  apply G. exact H.
Qed.
Lemma erel_out : forall M f (g : Z -> Z) m, (forall j v, erel M (f j) v -> v = g j) -> Forall2 (erel M) (out f) m ->
  m = map (fun p => g (Z.of_nat p)) (seq 0 256).
Proof.
  intros M f g m Hf. unfold out. generalize (seq 0 256). intro l. revert m. induction l as [|x l IH]; intros m H; cbn in H; inversion H; subst; [reflexivity|].
  cbn [map]. f_equal; [apply Hf; assumption|apply IH; assumption].
Qed.
Theorem elem_call_ok : forall M p vs junk args sa so arrays, regs64 vs junk -> erun p args sa = Some so ->
  Forall2 (Forall2 (erel M)) sa arrays -> exists r, elem_call p vs junk args arrays = Some r /\ Forall2 (Forall2 (erel M)) so r.
Proof.
  intros M p vs junk args sa so arrays [HV HJ] E H. unfold erun in E. unfold elem_call.
  refine (call64_R elane zlane64 (erel M) (elane_related M) p evregs vs _ _ junk sa arrays so _ _ _ E).
  - apply erel_svregs. exact HV.
  - rewrite <- HJ. apply erel_junk.
  - exact H.
Qed.
(** What the arrays hold on entry. *)
Definition held (arrays : list (list Z)) (a : nat) (j : Z) : Z := nth (Z.to_nat j) (nth a arrays []) 0.
Lemma held_vars : forall arrays a l n, nth a arrays [] = l -> length l = n -> Forall2 (erel (held arrays)) (vars a n) l.
Proof. intros arrays a l n E <-. apply erel_vars. intros p Hp. unfold held. rewrite E, Nat2Z.id. reflexivity. Qed.

(** poly.c 60-64: [poly_reduce]; 77-81: [poly_caddq]; 94-98: [poly_freeze]. *)
Definition first_array (o : option (list (list Z))) : option (list Z) := match o with Some (a :: _) => Some a | _ => None end.
Definition reduce64 vs junk (a : poly) : option poly := first_array (elem_call reduce_prog vs junk [0; 1]%nat [a; mont_const]).
Definition caddq64 vs junk (a : poly) : option poly := first_array (elem_call caddq_prog vs junk [0; 1]%nat [a; mont_const]).
Definition freeze64 vs junk (a : poly) : option poly := first_array (elem_call freeze_prog vs junk [0; 1]%nat [a; mont_const]).
(** poly.c 208-212: [poly_pointwise_montgomery]; [c0] is what the output held before. *)
Definition pointwise64 vs junk (c0 a b : poly) : option poly := first_array (elem_call pointwise_prog vs junk [0; 1; 2; 3]%nat [c0; a; b; mont_const]).
(** With the output in the place of the second operand (sign.c calls it so for c * t1). *)
Definition pointwise64_alias vs junk (a b : poly) : option poly := first_array (elem_call pointwise_prog vs junk [0; 1; 0; 2]%nat [b; a; mont_const]).
(** polyvec.c 180-184: [polyvecl_pointwise_acc_montgomery]; a vector is its polynomials in a row. *)
Definition acc64 vs junk (c0 : poly) (u v : polyvec) : option poly := first_array (elem_call acc_prog vs junk [0; 1; 2; 3]%nat [c0; concat u; concat v; mont_const]).
(** poly.c 229-233: [poly_power2round]; (a1, a0). *)
Definition power2round64 vs junk (a1 a0 a : poly) : option (poly * poly) :=
  match elem_call power2round_prog vs junk [0; 1; 2]%nat [a1; a0; a] with Some (x :: y :: _) => Some (x, y) | _ => None end.
(** With the high part in the place of the argument (polyveck_power2round(&t1, &t0, &t1)). *)
Definition power2round64_alias vs junk (a0 a : poly) : option (poly * poly) :=
  match elem_call power2round_prog vs junk [0; 1; 0]%nat [a; a0] with Some (x :: y :: _) => Some (x, y) | _ => None end.

Lemma map_at : forall (f : Z -> Z) a, length a = 256%nat -> map (fun p => f (nth (Z.to_nat (Z.of_nat p)) a 0)) (seq 0 256) = map f a.
Proof.
  intros f a L. rewrite <- L. clear L. induction a as [|x a IH]; [reflexivity|]. cbn [length seq map]. f_equal.
  rewrite <- seq_shift, map_map. rewrite <- IH. apply map_ext. intro p. rewrite !Nat2Z.id. reflexivity.
Qed.
Lemma map2_at : forall (f : Z -> Z -> Z) a b, length a = 256%nat -> length b = 256%nat ->
  map (fun p => f (nth (Z.to_nat (Z.of_nat p)) a 0) (nth (Z.to_nat (Z.of_nat p)) b 0)) (seq 0 256) = map2 f a b.
Proof.
  intros f a b La Lb. rewrite <- La. assert (L : length b = length a) by congruence. clear La Lb. revert b L.
  induction a as [|x a IH]; intros [|y b] L; try discriminate L; [reflexivity|]. cbn [length seq map map2]. f_equal.
  rewrite <- seq_shift, map_map. rewrite <- IH by (cbn in L; congruence). apply map_ext. intro p. rewrite !Nat2Z.id. reflexivity.
Qed.

Lemma reduce64_map : forall vs junk a, regs64 vs junk -> length a = 256%nat -> reduce64 vs junk a = Some (map red23 a).
Proof.
  intros vs junk a R L. unfold reduce64. set (arr := [a; mont_const]).
  destruct (elem_call_ok (held arr) _ vs junk _ _ _ arr R erun_reduce) as (r & -> & H).
  { constructor; [apply held_vars; auto|constructor; [apply erel_consts|constructor]]. }
  apply F2_head in H. destruct H as (y & m & -> & H). cbn [first_array].
  rewrite (erel_out (held arr) ER (fun j => red23 (held arr 0 j)) y); [|intros j v E; exact E|assumption].
  unfold held. cbn [nth arr]. rewrite map_at by exact L. reflexivity.
Qed.
Lemma caddq64_map : forall vs junk a, regs64 vs junk -> length a = 256%nat -> caddq64 vs junk a = Some (map addq31 a).
Proof.
  intros vs junk a R L. unfold caddq64. set (arr := [a; mont_const]).
  destruct (elem_call_ok (held arr) _ vs junk _ _ _ arr R erun_caddq) as (r & -> & H).
  { constructor; [apply held_vars; auto|constructor; [apply erel_consts|constructor]]. }
  apply F2_head in H. destruct H as (y & m & -> & H). cbn [first_array].
  rewrite (erel_out (held arr) EA (fun j => addq31 (held arr 0 j)) y); [|intros j v E; exact E|assumption].
  unfold held. cbn [nth arr]. rewrite map_at by exact L. reflexivity.
Qed.
Lemma pointwise64_map : forall vs junk c0 a b, regs64 vs junk -> length c0 = 256%nat -> length a = 256%nat -> length b = 256%nat ->
  pointwise64 vs junk c0 a b = Some (map2 (fun x y => mred (x * y)) a b).
Proof.
  intros vs junk c0 a b R Lc La Lb. unfold pointwise64. set (arr := [c0; a; b; mont_const]).
  destruct (elem_call_ok (held arr) _ vs junk _ _ _ arr R erun_pointwise) as (r & -> & H).
  { repeat (constructor; [solve [apply held_vars; auto | apply erel_consts]|]). constructor. }
  apply F2_head in H. destruct H as (y & m & -> & H). cbn [first_array].
  rewrite (erel_out (held arr) (ERh 2 1) (fun j => mred (held arr 1 j * held arr 2 j)) y); [|intros j v E|exact H].
  - unfold held. cbn [nth arr]. rewrite (map2_at (fun x y => mred (x * y))) by assumption. reflexivity.
  - cbn [erel dotn Z.of_nat] in E. rewrite Z.mul_0_r, Z.add_0_r, Z.add_0_l in E. exact E.
Qed.
Lemma pointwise64_alias_map : forall vs junk a b, regs64 vs junk -> length a = 256%nat -> length b = 256%nat ->
  pointwise64_alias vs junk a b = Some (map2 (fun x y => mred (x * y)) a b).
Proof.
  intros vs junk a b R La Lb. unfold pointwise64_alias. set (arr := [b; a; mont_const]).
  destruct (elem_call_ok (held arr) _ vs junk _ _ _ arr R erun_pointwise_alias) as (r & -> & H).
  { repeat (constructor; [solve [apply held_vars; auto | apply erel_consts]|]). constructor. }
  apply F2_head in H. destruct H as (y & m & -> & H). cbn [first_array].
  rewrite (erel_out (held arr) (ERh 0 1) (fun j => mred (held arr 1 j * held arr 0 j)) y); [|intros j v E|exact H].
  - unfold held. cbn [nth arr]. rewrite (map2_at (fun x y => mred (x * y))) by assumption. reflexivity.
  - cbn [erel dotn Z.of_nat] in E. rewrite Z.mul_0_r, Z.add_0_r, Z.add_0_l in E. exact E.
Qed.
Lemma power2round64_map : forall vs junk a1 a0 a, regs64 vs junk -> length a1 = 256%nat -> length a0 = 256%nat -> length a = 256%nat ->
  power2round64 vs junk a1 a0 a = Some (map p2r_hi a, map p2r_lo a) /\ power2round64_alias vs junk a0 a = Some (map p2r_hi a, map p2r_lo a).
Proof.
  intros vs junk a1 a0 a R L1 L0 L. split.
  - unfold power2round64. set (arr := [a1; a0; a]).
    destruct (elem_call_ok (held arr) _ vs junk _ _ _ arr R erun_power2round) as (r & -> & H).
    { repeat (constructor; [solve [apply held_vars; auto]|]). constructor. }
    inversion H as [|x y l m H1 H2]; subst. apply F2_head in H2. destruct H2 as (z & m' & -> & H2).
    rewrite (erel_out (held arr) (EP2 2) (fun j => p2r_hi (held arr 2 j)) y); [|intros j v E; exact E|assumption].
    rewrite (erel_out (held arr) (EP4 2) (fun j => p2r_lo (held arr 2 j)) z); [|intros j v E; exact E|assumption].
    unfold held. cbn [nth arr]. rewrite !map_at by exact L. reflexivity.
  - unfold power2round64_alias. set (arr := [a; a0]).
    destruct (elem_call_ok (held arr) _ vs junk _ _ _ arr R erun_power2round_alias) as (r & -> & H).
    { repeat (constructor; [solve [apply held_vars; auto]|]). constructor. }
    inversion H as [|x y l m H1 H2]; subst. apply F2_head in H2. destruct H2 as (z & m' & -> & H2).
    rewrite (erel_out (held arr) (EP2 0) (fun j => p2r_hi (held arr 0 j)) y); [|intros j v E; exact E|assumption].
    rewrite (erel_out (held arr) (EP4 0) (fun j => p2r_lo (held arr 0 j)) z); [|intros j v E; exact E|assumption].
    unfold held. cbn [nth arr]. rewrite !map_at by exact L. reflexivity.
Qed.
