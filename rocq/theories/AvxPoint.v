(** * AvxPoint: pointwise.S of pqclean/crypto_sign/dilithium2/avx2, the products in the transform
    domain: every lane is the Montgomery product, or the Montgomery reduction of the 64-bit sum of
    four products. *)
From Coq Require Import ZArith List Lia Bool.
From Verif Require Import Base Bits DilArith DilNtt AvxMachine AvxSym AvxSymOk.
Import ListNotations.
Open Scope Z_scope.

(** ** The programs *)
(** pointwise.S 9-73: one turn of [_looptop1], [i] counts the turns. Memory: the vectors of %rsi,
    then those of %rdx, 32 each; %rdi points to vector [d]: 64 for an array of its own, 32 when the
    output is the array of %rdx. *)
Definition pw_turn (d i : nat) : list instr :=
  let A := (3 * i)%nat in let B := (32 + 3 * i)%nat in let C := (d + 3 * i)%nat in
  [VLOAD A 2; VLOAD (A + 1) 4; VLOAD (A + 2) 6; VLOAD B 10; VLOAD (B + 1) 12; VLOAD (B + 2) 14;
   VPSRLQ32 2 3; VPSRLQ32 4 5; VMOVSHDUP 6 7; VPSRLQ32 10 11; VPSRLQ32 12 13; VMOVSHDUP 14 15;
   VPMULDQ 2 10 2; VPMULDQ 3 11 3; VPMULDQ 4 12 4; VPMULDQ 5 13 5; VPMULDQ 6 14 6; VPMULDQ 7 15 7;
   VPMULDQ 0 2 10; VPMULDQ 0 3 11; VPMULDQ 0 4 12; VPMULDQ 0 5 13; VPMULDQ 0 6 14; VPMULDQ 0 7 15;
   VPMULDQ 1 10 10; VPMULDQ 1 11 11; VPMULDQ 1 12 12; VPMULDQ 1 13 13; VPMULDQ 1 14 14; VPMULDQ 1 15 15;
   VPSUBQ 10 2 2; VPSUBQ 11 3 3; VPSUBQ 12 4 4; VPSUBQ 13 5 5; VPSUBQ 14 6 6; VPSUBQ 15 7 7;
   VPSRLQ32 2 2; VPSRLQ32 4 4; VMOVSHDUP 6 6;
   VPBLENDD_AA 3 2 2; VPBLENDD_AA 5 4 4; VPBLENDD_AA 7 6 6;
   VSTORE 2 C; VSTORE 4 (C + 1); VSTORE 6 (C + 2)].
(** pointwise.S 75-112: the last two vectors. *)
Definition pw_tail (d : nat) : list instr :=
  [VLOAD 30 2; VLOAD 31 4; VLOAD 62 10; VLOAD 63 12;
   VPSRLQ32 2 3; VPSRLQ32 4 5; VMOVSHDUP 10 11; VMOVSHDUP 12 13;
   VPMULDQ 2 10 2; VPMULDQ 3 11 3; VPMULDQ 4 12 4; VPMULDQ 5 13 5;
   VPMULDQ 0 2 10; VPMULDQ 0 3 11; VPMULDQ 0 4 12; VPMULDQ 0 5 13;
   VPMULDQ 1 10 10; VPMULDQ 1 11 11; VPMULDQ 1 12 12; VPMULDQ 1 13 13;
   VPSUBQ 10 2 2; VPSUBQ 11 3 3; VPSUBQ 12 4 4; VPSUBQ 13 5 5;
   VPSRLQ32 2 2; VMOVSHDUP 4 4;
   VPBLENDD_55 2 3 2; VPBLENDD_55 4 5 4;
   VSTORE 2 (d + 30); VSTORE 4 (d + 31)].
(** pointwise.S 9-114: [pointwise_avx]. *)
Definition pointwise_prog (d : nat) : list instr :=
  [VCONST _8XQINV 0; VCONST _8XQ 1] ++ flat_map (pw_turn d) (seq 0 10) ++ pw_tail d.

(** pointwise.S 116-132: the [pointwise] macro; [v] is the polynomial of the vector, [i] the turn.
    Memory: the 128 vectors of %rsi, the 128 of %rdx, the 32 of %rdi. *)
Definition pa_mul (v i : nat) : list instr :=
  let A := (32 * v + 2 * i)%nat in let B := (128 + 32 * v + 2 * i)%nat in
  [VLOAD A 6; VLOAD (A + 1) 8; VLOAD B 10; VLOAD (B + 1) 12;
   VPSRLQ32 6 7; VPSRLQ32 8 9; VMOVSHDUP 10 11; VMOVSHDUP 12 13;
   VPMULDQ 6 10 6; VPMULDQ 7 11 7; VPMULDQ 8 12 8; VPMULDQ 9 13 9].
(** pointwise.S 134-139: the [acc] macro. *)
Definition pa_acc : list instr := [VPADDQ 6 2 2; VPADDQ 7 3 3; VPADDQ 8 4 4; VPADDQ 9 5 5].
(** pointwise.S 150-197: one turn of [_looptop2]. *)
Definition pa_turn (i : nat) : list instr :=
  pa_mul 0 i ++ [VMOV 6 2; VMOV 7 3; VMOV 8 4; VMOV 9 5] ++
  pa_mul 1 i ++ pa_acc ++ pa_mul 2 i ++ pa_acc ++ pa_mul 3 i ++ pa_acc ++
  [VPMULDQ 0 2 6; VPMULDQ 0 3 7; VPMULDQ 0 4 8; VPMULDQ 0 5 9;
   VPMULDQ 1 6 6; VPMULDQ 1 7 7; VPMULDQ 1 8 8; VPMULDQ 1 9 9;
   VPSUBQ 6 2 2; VPSUBQ 7 3 3; VPSUBQ 8 4 4; VPSUBQ 9 5 5;
   VPSRLQ32 2 2; VMOVSHDUP 4 4; VPBLENDD_AA 3 2 2; VPBLENDD_AA 5 4 4;
   VSTORE 2 (256 + 2 * i); VSTORE 4 (256 + 2 * i + 1)].
(** pointwise.S 141-199: [pointwise_acc_avx]. *)
Definition pointwise_acc_prog : list instr :=
  [VCONST _8XQINV 0; VCONST _8XQ 1] ++ flat_map pa_turn (seq 0 16).

(** The functions (poly.c 187-193; polyvec.c 137-146): [c0] is what the output held before. *)
Definition run_mem (p : list instr) (R : list (list Z)) (n : nat) (m : list Z) : list (list Z) :=
  mem (run zlane p {| regs := R; mem := chunks n m |}).
Definition pointwise_avx (R : list (list Z)) (a b c0 : list Z) : list Z :=
  concat (skipn 64 (run_mem (pointwise_prog 64) R 96 (a ++ b ++ c0))).
(** With the output in the place of the second operand (sign.c 325 calls it so). *)
Definition pointwise_alias_avx (R : list (list Z)) (a b : list Z) : list Z :=
  concat (skipn 32 (run_mem (pointwise_prog 32) R 64 (a ++ b))).
Definition pointwise_acc_avx (R : list (list Z)) (a b : list (list Z)) (c0 : list Z) : list Z :=
  concat (skipn 256 (run_mem pointwise_acc_prog R 288 (concat a ++ concat b ++ c0))).

(** ** Symbolic lanes *)
Inductive psym : Type :=
| PX | PC (z : Z) | PIn (i : Z)
| PLo (l : list (Z * Z)) | PHi (l : list (Z * Z))   (* halves of a sum of products *)
| PT (l : list (Z * Z))                            (* low half of QINV times the sum *)
| PUlo (l : list (Z * Z)) | PUhi (l : list (Z * Z)) (* halves of Q times that *)
| PRes (l : list (Z * Z)).                         (* the Montgomery reduction of the sum *)
Fixpoint pairs_eqb (l m : list (Z * Z)) : bool :=
  match l, m with
  | [], [] => true
  | (a, b) :: l, (c, d) :: m => Z.eqb a c && Z.eqb b d && pairs_eqb l m
  | _, _ => false
  end.
Definition p_mul (x y : psym) : psym * psym :=
  match x, y with
  | PIn i, PIn j => (PLo [(i, j)], PHi [(i, j)])
  | PLo l, PC z => if Z.eqb z QINV then (PT l, PX) else (PX, PX)
  | PT l, PC z => if Z.eqb z Q then (PUlo l, PUhi l) else (PX, PX)
  | _, _ => (PX, PX)
  end.
Definition p_addq (x y : psym * psym) : psym * psym :=
  match x, y with
  | (PLo l, PHi l'), (PLo m, PHi m') => if pairs_eqb l l' && pairs_eqb m m' then (PLo (l ++ m), PHi (l ++ m)) else (PX, PX)
  | _, _ => (PX, PX)
  end.
Definition p_subq (x y : psym * psym) : psym * psym :=
  match x, y with
  | (PLo l, PHi l'), (PUlo m, PUhi m') =>
      if pairs_eqb l l' && pairs_eqb m m' && pairs_eqb l m then (PX, PRes l) else (PX, PX)
  | _, _ => (PX, PX)
  end.
Definition plane : lane psym := {|
  l_const := PC; l_mul := p_mul; l_add := fun _ _ => PX; l_sub := fun _ _ => PX;
  l_addq := p_addq; l_subq := p_subq |}.

Definition prun (p : list instr) (n k : nat) : list psym :=
  concat (skipn k (mem (run plane p {| regs := repeat (repeat PX 8) 16; mem := chunks n (map (fun i => PIn (Z.of_nat i)) (seq 0 (8 * n))) |}))).
Definition pw_expected : list psym := map (fun i => PRes [(Z.of_nat (256 + i), Z.of_nat i)]) (seq 0 256).
Definition pa_expected : list psym :=
  map (fun i => PRes (map (fun v => (Z.of_nat (1024 + 256 * v + i), Z.of_nat (256 * v + i))) [0; 1; 2; 3]%nat)) (seq 0 256).
Lemma pointwise_prun : prun (pointwise_prog 64) 96 64 = pw_expected.
Proof. vm_compute. reflexivity. Qed.
Lemma pointwise_alias_prun : prun (pointwise_prog 32) 64 32 = pw_expected.
Proof. vm_compute. reflexivity. Qed.
Lemma pointwise_acc_prun : prun pointwise_acc_prog 288 256 = pa_expected.
Proof. vm_compute. reflexivity. Qed.

(** ** What they stand for *)
Section Sound.
Variable M : Z -> Z.
Definition psum (l : list (Z * Z)) : Z := fold_right (fun ij s => M (fst ij) * M (snd ij) + s) 0 l.
Definition prel (s : psym) (v : Z) : Prop :=
  match s with
  | PX => True
  | PC z => v = z
  | PIn i => v = M i
  | PLo l => v = i32 (psum l)
  | PHi l => v = i32 (Z.shiftr (psum l) 32)
  | PT l => v = i32 (psum l * QINV)
  | PUlo l => v = i32 (i32 (psum l * QINV) * Q)
  | PUhi l => v = i32 (Z.shiftr (i32 (psum l * QINV) * Q) 32)
  | PRes l => v = mred (psum l)
  end.
Lemma pairs_eqb_ok : forall l m, pairs_eqb l m = true -> l = m.
Proof.
  induction l as [|[a b] l IH]; intros [|[c d] m] H; cbn in H; try discriminate H; [reflexivity|].
  apply andb_true_iff in H. destruct H as [H H2]. apply andb_true_iff in H. destruct H as [H H1].
  apply Z.eqb_eq in H, H1. rewrite (IH m H2). congruence.
Qed.
Lemma q64_split : forall x, exists k, q64 (split64 x) = x + k * 18446744073709551616.
Proof.
  intro x. unfold q64, split64. cbn [fst snd]. destruct (i32_cong x) as [a Ha]. destruct (i32_cong (Z.shiftr x 32)) as [b Hb].
  rewrite Ha, Hb, Z.mod_add by lia. rewrite Z.shiftr_div_pow2 by lia. change (2 ^ 32) with 4294967296.
  exists b. pose proof (Z.div_mod x 4294967296 ltac:(lia)). lia.
Qed.
Lemma split_eqm : forall x k, split64 (x + k * 18446744073709551616) = split64 x.
Proof.
  intros x k. unfold split64. replace (k * 18446744073709551616) with ((k * 4294967296) * 4294967296) by ring.
  rewrite i32_eqm. f_equal. rewrite !Z.shiftr_div_pow2 by lia. change (2 ^ 32) with 4294967296.
  rewrite Z.div_add by lia. apply i32_eqm.
Qed.
Lemma psum_app : forall l m, psum (l ++ m) = psum l + psum m.
Proof. induction l as [|p l IH]; intro m; cbn; [reflexivity|]. fold (psum (l ++ m)). rewrite IH. fold (psum l). lia. Qed.

Lemma p_mul_ok : forall x x' y y', prel x x' -> prel y y' -> R2 prel (l_mul plane x y) (l_mul zlane x' y').
Proof.
  intros x x' y y' Hx Hy. cbn [l_mul plane zlane]. unfold split64, R2. cbn [fst snd].
  destruct x; cbn [p_mul fst snd]; try (split; exact Logic.I);
    destruct y; cbn [p_mul fst snd]; try (split; exact Logic.I); cbn [prel] in *; subst.
  - cbn [psum fold_right fst snd]. rewrite Z.add_0_r. split; reflexivity.
  - destruct (Z.eqb_spec z QINV); cbn [fst snd prel]; [|split; exact Logic.I]. subst z. split; [|exact Logic.I].
    destruct (i32_cong (psum l)) as [k ->].
    replace ((psum l + k * 4294967296) * QINV) with (psum l * QINV + (k * QINV) * 4294967296) by ring. apply i32_eqm.
  - destruct (Z.eqb_spec z Q); cbn [fst snd prel]; [|split; exact Logic.I]. subst z. split; reflexivity.
Qed.
Lemma p_addq_ok : forall x x' y y', R2 prel x x' -> R2 prel y y' -> R2 prel (l_addq plane x y) (l_addq zlane x' y').
Proof.
  intros [x1 x2] [u1 u2] [y1 y2] [v1 v2] [Hx1 Hx2] [Hy1 Hy2]. cbn [l_addq plane zlane fst snd] in *.
  destruct x1; try (split; exact Logic.I). destruct x2; try (split; exact Logic.I).
  destruct y1; try (split; exact Logic.I). destruct y2; try (split; exact Logic.I). cbn [p_addq].
  destruct (_ && _) eqn:G; [|split; exact Logic.I]. apply andb_true_iff in G. destruct G as [G1 G2].
  apply pairs_eqb_ok in G1, G2. subst l0 l2. cbn [prel] in Hx1, Hx2, Hy1, Hy2. subst.
  change (i32 (psum l), i32 (Z.shiftr (psum l) 32)) with (split64 (psum l)).
  change (i32 (psum l1), i32 (Z.shiftr (psum l1) 32)) with (split64 (psum l1)).
  destruct (q64_split (psum l)) as [a ->]. destruct (q64_split (psum l1)) as [b ->].
  replace (psum l + a * 18446744073709551616 + (psum l1 + b * 18446744073709551616)) with (psum (l ++ l1) + (a + b) * 18446744073709551616)
    by (rewrite psum_app; ring).
  rewrite split_eqm. split; reflexivity.
Qed.
Lemma p_subq_ok : forall x x' y y', R2 prel x x' -> R2 prel y y' -> R2 prel (l_subq plane x y) (l_subq zlane x' y').
Proof.
  intros [x1 x2] [u1 u2] [y1 y2] [v1 v2] [Hx1 Hx2] [Hy1 Hy2]. cbn [l_subq plane zlane fst snd] in *.
  destruct x1; try (split; exact Logic.I). destruct x2; try (split; exact Logic.I).
  destruct y1; try (split; exact Logic.I). destruct y2; try (split; exact Logic.I). cbn [p_subq].
  destruct (_ && _) eqn:G; [|split; exact Logic.I]. apply andb_true_iff in G. destruct G as [G G3]. apply andb_true_iff in G. destruct G as [G1 G2].
  apply pairs_eqb_ok in G1, G2, G3. subst l0 l2 l1. cbn [prel] in Hx1, Hx2, Hy1, Hy2. subst.
  change (i32 (psum l), i32 (Z.shiftr (psum l) 32)) with (split64 (psum l)).
  set (t := i32 (psum l * QINV) * Q).
  change (i32 t, i32 (Z.shiftr t 32)) with (split64 t).
  destruct (q64_split (psum l)) as [a ->]. destruct (q64_split t) as [b ->].
  replace (psum l + a * 18446744073709551616 - (t + b * 18446744073709551616)) with (psum l - t + (a - b) * 18446744073709551616) by ring.
  rewrite split_eqm. split; [exact Logic.I|]. cbn [snd split64 prel]. reflexivity.
Qed.
End Sound.

Lemma F2_seq : forall M m s, (forall i, (i < length m)%nat -> M (Z.of_nat (s + i)) = nth i m 0) ->
  Forall2 (prel M) (map (fun i => PIn (Z.of_nat i)) (seq s (length m))) m.
Proof.
  intros M m. induction m as [|x m IH]; intros s H; cbn; constructor.
  - cbn [prel]. specialize (H 0%nat ltac:(cbn; lia)). rewrite Nat.add_0_r in H. symmetry. exact H.
  - apply IH. intros i Hi. specialize (H (S i) ltac:(cbn; lia)). cbn [nth] in H. rewrite <- H. f_equal. lia.
Qed.
Lemma prun_ok : forall p R n k m, regs_ok R -> length m = (8 * n)%nat ->
  Forall2 (prel (fun i => nth (Z.to_nat i) m 0)) (prun p n k) (concat (skipn k (run_mem p R n m))).
Proof.
  intros p R n k m [LR FR] L. unfold prun, run_mem. set (M := fun i => nth (Z.to_nat i) m 0).
  apply (concat_R (prel M)). apply (skipn_R (Forall2 (prel M))).
  match goal with |- Forall2 _ (mem ?s) (mem ?t) => assert (H : RS (prel M) s t); [|destruct H as [_ H]; exact H] end.
  apply (run_R plane zlane (prel M)).
  - reflexivity.
  - apply p_mul_ok.
  - intros. exact Logic.I.
  - intros. exact Logic.I.
  - apply p_addq_ok.
  - apply p_subq_ok.
  - split; cbn [regs mem].
    + rewrite Forall_forall in FR. apply F2_repeat; [exact LR|]. intros v Hv. apply F2_repeat; [apply FR; exact Hv|]. intros y _. exact Logic.I.
    + apply (chunks_R (prel M)). rewrite <- L. apply F2_seq. intros i Hi. unfold M. rewrite Nat2Z.id. reflexivity.
Qed.
Local Opaque run_mem.
Lemma prel_res : forall M (f : nat -> list (Z * Z)) l v, Forall2 (prel M) (map (fun i => PRes (f i)) l) v -> v = map (fun i => mred (psum M (f i))) l.
Proof.
  induction l as [|x l IH]; intros v H; cbn in H; inversion H; subst; [reflexivity|]. cbn. f_equal; [assumption|]. apply IH. assumption.
Qed.

(** ** The results *)
Theorem pointwise_avx_ok : forall R a b c0, regs_ok R -> length a = 256%nat -> length b = 256%nat -> length c0 = 256%nat ->
  pointwise_avx R a b c0 = map (fun p => mred (at_ a p * at_ b p)) (seq 0 256).
Proof.
  intros R a b c0 HR La Lb Lc. pose proof (prun_ok (pointwise_prog 64) R 96 64 (a ++ b ++ c0) HR) as H.
  rewrite pointwise_prun in H. unfold pw_expected in H. apply prel_res in H; [|rewrite !app_length, La, Lb, Lc; reflexivity].
  unfold pointwise_avx. rewrite H. clear H. apply map_ext_in. intros p Hp. apply in_seq in Hp.
  cbn [psum fold_right fst snd]. rewrite !Nat2Z.id. rewrite Z.add_0_r, Z.mul_comm. f_equal. unfold at_. f_equal.
  - rewrite app_nth1 by lia. reflexivity.
  - rewrite app_nth2 by lia. rewrite app_nth1 by lia. f_equal. lia.
Qed.
Theorem pointwise_alias_avx_ok : forall R a b, regs_ok R -> length a = 256%nat -> length b = 256%nat ->
  pointwise_alias_avx R a b = map (fun p => mred (at_ a p * at_ b p)) (seq 0 256).
Proof.
  intros R a b HR La Lb. pose proof (prun_ok (pointwise_prog 32) R 64 32 (a ++ b) HR) as H.
  rewrite pointwise_alias_prun in H. unfold pw_expected in H. apply prel_res in H; [|rewrite !app_length, La, Lb; reflexivity].
  unfold pointwise_alias_avx. rewrite H. clear H. apply map_ext_in. intros p Hp. apply in_seq in Hp.
  cbn [psum fold_right fst snd]. rewrite !Nat2Z.id. rewrite Z.add_0_r, Z.mul_comm. f_equal. unfold at_. f_equal.
  - rewrite app_nth1 by lia. reflexivity.
  - rewrite app_nth2 by lia. f_equal. lia.
Qed.
Lemma concat_nth : forall (l : list (list Z)) i p, Forall (fun a => length a = 256%nat) l -> (p < 256)%nat -> (i < length l)%nat ->
  nth (256 * i + p) (concat l) 0 = at_ (nth i l []) p.
Proof.
  intros l i p F Hp. revert i. induction F as [|a l La F IH]; intros i Hi; [cbn in Hi; lia|]. cbn [concat]. destruct i as [|i].
  - rewrite app_nth1 by lia. unfold at_. cbn [nth]. f_equal; lia.
  - rewrite app_nth2 by lia. cbn [nth]. rewrite <- IH by (cbn in Hi; lia). f_equal. lia.
Qed.
Lemma concat_256 : forall (l : list (list Z)), Forall (fun a => length a = 256%nat) l -> length (concat l) = (256 * length l)%nat.
Proof. intros l F. induction F as [|a l La F IH]; cbn [concat length]; [lia|]. rewrite app_length, IH, La. lia. Qed.
Theorem pointwise_acc_avx_ok : forall R a b c0, regs_ok R -> length a = 4%nat -> Forall (fun x => length x = 256%nat) a ->
  length b = 4%nat -> Forall (fun x => length x = 256%nat) b -> length c0 = 256%nat ->
  pointwise_acc_avx R a b c0 = map (fun p => mred (at_ (nth 0 a []) p * at_ (nth 0 b []) p + at_ (nth 1 a []) p * at_ (nth 1 b []) p +
    at_ (nth 2 a []) p * at_ (nth 2 b []) p + at_ (nth 3 a []) p * at_ (nth 3 b []) p)) (seq 0 256).
Proof.
  intros R a b c0 HR La Fa Lb Fb Lc.
  assert (LA : length (concat a) = 1024%nat) by (rewrite (concat_256 a Fa), La; reflexivity).
  assert (LB : length (concat b) = 1024%nat) by (rewrite (concat_256 b Fb), Lb; reflexivity).
  pose proof (prun_ok pointwise_acc_prog R 288 256 (concat a ++ concat b ++ c0) HR) as H.
  rewrite pointwise_acc_prun in H. unfold pa_expected in H. apply prel_res in H; [|rewrite !app_length, LA, LB, Lc; reflexivity].
  unfold pointwise_acc_avx. rewrite H. clear H. apply map_ext_in. intros p Hp. apply in_seq in Hp.
  assert (GA : forall v, (v < 4)%nat -> nth (Z.to_nat (Z.of_nat (256 * v + p))) (concat a ++ concat b ++ c0) 0 = at_ (nth v a []) p).
  { intros v Hv. rewrite Nat2Z.id. rewrite app_nth1 by lia. apply concat_nth; [exact Fa|lia|lia]. }
  assert (GB : forall v, (v < 4)%nat -> nth (Z.to_nat (Z.of_nat (1024 + 256 * v + p))) (concat a ++ concat b ++ c0) 0 = at_ (nth v b []) p).
  { intros v Hv. rewrite Nat2Z.id. rewrite app_nth2 by lia. rewrite app_nth1 by lia. rewrite <- (concat_nth b v p Fb) by lia. f_equal. lia. }
  cbn [map psum fold_right fst snd]. rewrite !GA, !GB by lia. f_equal. ring.
Qed.
