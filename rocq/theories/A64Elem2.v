(** * A64Elem2: the coefficient-wise assembly routines against the portable loops. *)
From Coq Require Import ZArith List Lia Bool.
From Verif Require Import Base Bits SaberPoly DilArith DilNtt DilNttProof DilPoly DilOps
  AvxMachine AvxSym AvxSymOk AvxNtt AvxPoint AvxPoly AvxSignOk A64Machine A64Rel A64Sym A64SymOk A64Ntt A64Elem.
Import ListNotations.
Open Scope Z_scope.

Lemma mapM_len : forall {A B : Type} (f : A -> crun B) l r, mapM f l = CRet r -> length r = length l.
Proof.
  intros A B f l. induction l as [|x l IH]; intros r E; cbn [mapM] in E; [injection E as <-; reflexivity|].
  destruct (f x) as [y| |]; cbn [cbind] in E; try discriminate E.
  destruct (mapM f l) as [m| |] eqn:Em; cbn [cbind] in E; try discriminate E. injection E as <-. cbn. f_equal. apply IH. reflexivity.
Qed.
Lemma red23_spec : forall x y, reduce32 x = CRet y -> red23 x = y.
Proof.
  intros x y E. unfold reduce32 in E. unfold red23, sr23.
  destruct (chk32 (x + 4194304)) as [s| |] eqn:E1; try discriminate E. cbn [cbind] in E. apply chk32_inv in E1. destruct E1 as [-> _].
  destruct (chk32 (Z.shiftr (x + 4194304) 23 * Q)) as [p| |] eqn:E2; try discriminate E. cbn [cbind] in E. apply chk32_inv in E2. destruct E2 as [-> _].
  apply chk32_inv in E. destruct E as [-> E]. exact E.
Qed.
Lemma addq31_spec : forall x y, in32 x -> caddq x = CRet y -> addq31 x = y.
Proof.
  intros x y Hx E. unfold caddq in E. apply chk32_inv in E. destruct E as [-> E]. unfold addq31.
  assert (S : Z.shiftr x 31 = 0 \/ Z.shiftr x 31 = -1).
  { rewrite Z.shiftr_div_pow2 by lia. change (2 ^ 31) with 2147483648. unfold in32 in Hx.
    destruct (Z_lt_ge_dec x 0); [right|left]; symmetry.
    - apply Z.div_unique with (x + 2147483648); lia.
    - apply Z.div_unique with x; lia. }
  destruct S as [S|S]; rewrite S in *.
  - rewrite Z.land_0_l in *. rewrite Z.mul_0_l, Z.sub_0_r. rewrite Z.add_0_r in *. exact E.
  - rewrite Z.land_m1_l in *. replace (x - -1 * Q) with (x + Q) by ring. exact E.
Qed.
Lemma p2r_spec : forall x y, in32 x -> power2round x = CRet y -> y = (p2r_hi x, p2r_lo x).
Proof.
  intros x y Hx E. unfold power2round in E. unfold p2r_lo, p2r_hi.
  destruct (chk32 (x + 4096)) as [s| |] eqn:E1; try discriminate E. cbn [cbind] in E. apply chk32_inv in E1. destruct E1 as [-> _].
  destruct (chk32 (x + 4096 - 1)) as [s| |] eqn:E2; try discriminate E. cbn [cbind] in E. apply chk32_inv in E2. destruct E2 as [-> _].
  cbv zeta in E. unfold shl32 in E. destruct (Z.shiftr (x + 4096 - 1) DD <? 0) eqn:N; [discriminate E|].
  apply Z.ltb_ge in N. unfold DD in *.
  assert (P : - 4095 <= x).
  { rewrite Z.shiftr_div_pow2 in N by lia. change (2 ^ 13) with 8192 in N.
    destruct (Z_lt_ge_dec (x + 4096 - 1) 0) as [C|C]; [|lia]. pose proof (Z.div_lt_upper_bound (x + 4096 - 1) 8192 0). lia. }
  rewrite (i32_id (x - 1)) by (unfold in32 in *; lia). replace (x - 1 + 4096) with (x + 4096 - 1) by ring.
  set (h := Z.shiftr (x + 4096 - 1) 13) in *.
  destruct (chk32 (h * 2 ^ 13)) as [p| |] eqn:E3; try discriminate E. cbn [cbind] in E. apply chk32_inv in E3. destruct E3 as [-> E3].
  destruct (chk32 (x - h * 2 ^ 13)) as [a0| |] eqn:E4; try discriminate E. cbn [cbind] in E. apply chk32_inv in E4. destruct E4 as [-> E4].
  injection E as <-. rewrite Z.shiftl_mul_pow2 by lia. rewrite E3, E4. reflexivity.
Qed.

(** ** One polynomial *)
Theorem reduce64_ok : forall vs junk a r, regs64 vs junk -> length a = 256%nat ->
  poly_reduce a = CRet r -> reduce64 vs junk a = Some r.
Proof. intros vs junk a r R L E. rewrite reduce64_map by assumption. f_equal. exact (mapM_lane reduce32 red23 a r red23_spec E). Qed.
Theorem caddq64_ok : forall vs junk a r, regs64 vs junk -> length a = 256%nat -> Forall in32 a ->
  poly_caddq a = CRet r -> caddq64 vs junk a = Some r.
Proof.
  intros vs junk a r R L F E. rewrite caddq64_map by assumption. f_equal. clear L. revert r E. unfold poly_caddq.
  induction F as [|x a Hx F IH]; intros r E; cbn [mapM map] in *; [injection E as <-; reflexivity|].
  destruct (caddq x) as [y| |] eqn:Ef; cbn [cbind] in E; try discriminate E.
  destruct (mapM caddq a) as [l| |] eqn:Em; cbn [cbind] in E; try discriminate E. injection E as <-.
  rewrite (IH l eq_refl). f_equal. apply addq31_spec; assumption.
Qed.
Theorem pointwise64_ok : forall vs junk c0 a b r, regs64 vs junk -> length c0 = 256%nat -> length a = 256%nat -> length b = 256%nat ->
  poly_pointwise_montgomery a b = CRet r -> pointwise64 vs junk c0 a b = Some r /\ pointwise64_alias vs junk a b = Some r.
Proof.
  intros vs junk c0 a b r R Lc La Lb E.
  assert (G : map2 (fun x y => mred (x * y)) a b = r).
  { apply (zipM_lane (fun x y => montgomery_reduce (x * y)) (fun x y => mred (x * y)) a b r); [|exact E].
    intros x y z H. symmetry. apply mred_spec. exact H. }
  rewrite pointwise64_map, pointwise64_alias_map by assumption. rewrite G. split; reflexivity.
Qed.
Theorem power2round64_ok : forall vs junk a1 a0 a r, regs64 vs junk -> length a1 = 256%nat -> length a0 = 256%nat -> length a = 256%nat ->
  Forall in32 a -> poly_power2round a = CRet r -> power2round64 vs junk a1 a0 a = Some r /\ power2round64_alias vs junk a0 a = Some r.
Proof.
  intros vs junk a1 a0 a r R L1 L0 L F E.
  destruct (power2round64_map vs junk a1 a0 a R L1 L0 L) as [-> ->].
  assert (G : (map p2r_hi a, map p2r_lo a) = r); [|rewrite G; split; reflexivity].
  unfold poly_power2round in E. destruct (mapM power2round a) as [l| |] eqn:Em; cbn [cbind] in E; try discriminate E. injection E as <-.
  clear L. revert l Em. induction F as [|x a Hx F IH]; intros l E; cbn [mapM map] in *; [injection E as <-; reflexivity|].
  destruct (power2round x) as [y| |] eqn:Ef; cbn [cbind] in E; try discriminate E.
  destruct (mapM power2round a) as [m| |] eqn:Em; cbn [cbind] in E; try discriminate E. injection E as <-.
  specialize (IH m eq_refl). injection IH as I1 I2. apply p2r_spec in Ef; [|exact Hx]. subst y. cbn [map fst snd]. rewrite <- I1, <- I2. reflexivity.
Qed.

(** ** A row of the matrix times a vector *)
Definition dot4 (u v : polyvec) (p : nat) : Z :=
  at_ (vat u 0) p * at_ (vat v 0) p + at_ (vat u 1) p * at_ (vat v 1) p + at_ (vat u 2) p * at_ (vat v 2) p + at_ (vat u 3) p * at_ (vat v 3) p.
Lemma nth_concat4 : forall (u : polyvec) k p, length u = 4%nat -> (forall i, (i < 4)%nat -> length (vat u i) = 256%nat) -> (k < 4)%nat -> (p < 256)%nat ->
  nth (k * 256 + p) (concat u) 0 = at_ (vat u k) p.
Proof.
  intros u k p Lu L Hk Hp. destruct u as [|u0 [|u1 [|u2 [|u3 [|? ?]]]]]; try discriminate Lu.
  pose proof (L 0%nat ltac:(lia)) as L0. pose proof (L 1%nat ltac:(lia)) as L1. pose proof (L 2%nat ltac:(lia)) as L2. pose proof (L 3%nat ltac:(lia)) as L3.
  cbn [vat nth] in L0, L1, L2, L3. cbn [concat]. rewrite app_nil_r.
  assert (S : forall (a b : list Z) n, length a = 256%nat -> nth (S n * 256 + p) (a ++ b) 0 = nth (n * 256 + p) b 0).
  { intros a b n La. rewrite app_nth2 by (rewrite La; lia). rewrite La. f_equal. lia. }
  assert (Z0 : forall (a b : list Z), length a = 256%nat -> nth (0 * 256 + p) (a ++ b) 0 = at_ a p).
  { intros a b La. cbn [Nat.mul Nat.add]. rewrite app_nth1 by lia. reflexivity. }
  destruct k as [|[|[|[|k]]]]; [| | | |lia].
  - rewrite Z0 by assumption. reflexivity.
  - rewrite S, Z0 by assumption. reflexivity.
  - rewrite !S, Z0 by assumption. reflexivity.
  - rewrite !S by assumption. cbn [Nat.mul Nat.add]. reflexivity.
Qed.
Lemma concat4_len : forall (u : polyvec), length u = 4%nat -> (forall i, (i < 4)%nat -> length (vat u i) = 256%nat) -> length (concat u) = 1024%nat.
Proof.
  intros u Lu L. destruct u as [|u0 [|u1 [|u2 [|u3 [|? ?]]]]]; try discriminate Lu.
  pose proof (L 0%nat ltac:(lia)) as L0. pose proof (L 1%nat ltac:(lia)) as L1. pose proof (L 2%nat ltac:(lia)) as L2. pose proof (L 3%nat ltac:(lia)) as L3.
  cbn [vat nth] in L0, L1, L2, L3. cbn [concat]. rewrite !app_length, L0, L1, L2, L3. reflexivity.
Qed.
Lemma acc64_map : forall vs junk c0 u v, regs64 vs junk -> length c0 = 256%nat ->
  length u = 4%nat -> (forall i, (i < 4)%nat -> length (vat u i) = 256%nat) ->
  length v = 4%nat -> (forall i, (i < 4)%nat -> length (vat v i) = 256%nat) ->
  acc64 vs junk c0 u v = Some (map (fun p => mred (dot4 u v p)) (seq 0 256)).
Proof.
  intros vs junk c0 u v R Lc Lu Fu Lv Fv. unfold acc64.
  pose proof (concat4_len u Lu Fu) as Cu. pose proof (concat4_len v Lv Fv) as Cv.
  assert (Nu : forall k p, (k < 4)%nat -> (p < 256)%nat -> nth (k * 256 + p) (concat u) 0 = at_ (vat u k) p) by (intros; apply nth_concat4; assumption).
  assert (Nv : forall k p, (k < 4)%nat -> (p < 256)%nat -> nth (k * 256 + p) (concat v) 0 = at_ (vat v k) p) by (intros; apply nth_concat4; assumption).
  set (cu := concat u) in *. set (cv := concat v) in *. clearbody cu cv.
  set (arr := [c0; cu; cv; mont_const]).
  destruct (elem_call_ok (held arr) _ vs junk _ _ _ arr R erun_acc) as (r & -> & H).
  { repeat (constructor; [solve [apply held_vars; auto | apply erel_consts]|]). constructor. }
  apply F2_head in H. destruct H as (y & m & -> & H). cbn [first_array].
  rewrite (erel_out (held arr) (ERh 2 4) (fun j => mred (dotn (held arr) 2 4 j)) y); [|intros j x E; exact E|exact H].
  f_equal. apply map_ext_in. intros p Hp. apply in_seq in Hp. f_equal. unfold dot4.
  assert (K : forall k, (k < 4)%nat -> held arr 1 (Z.of_nat p + 256 * Z.of_nat k) = at_ (vat u k) p /\ held arr 2 (Z.of_nat p + 256 * Z.of_nat k) = at_ (vat v k) p).
  { intros k Hk. unfold held. cbn [nth arr]. replace (Z.to_nat (Z.of_nat p + 256 * Z.of_nat k)) with (k * 256 + p)%nat by lia.
    rewrite Nu, Nv by lia. split; reflexivity. }
  cbn [dotn]. destruct (K 0%nat ltac:(lia)) as [-> ->]. destruct (K 1%nat ltac:(lia)) as [-> ->].
  destruct (K 2%nat ltac:(lia)) as [-> ->]. destruct (K 3%nat ltac:(lia)) as [-> ->]. ring.
Qed.

(** ** asm_poly_freeze leaves its array *)
(** Values do not matter: run over the one-point lane. *)
Definition ulane : lane64 unit := {|
  n_const := fun _ => tt; n_add := fun _ _ => tt; n_sub := fun _ _ => tt; n_mul := fun _ _ => tt; n_rdmulh := fun _ _ => tt; n_mls := fun _ _ _ => tt;
  n_mla := fun _ _ _ => tt; n_srshr := fun _ _ => tt; n_sshr := fun _ _ => tt; n_shl := fun _ _ => tt; n_cmge := fun _ _ => tt;
  n_smull := fun _ _ => (tt, tt); n_smlal := fun _ _ _ => (tt, tt); n_smlsl := fun _ _ _ => (tt, tt);
  n_lsr1 := fun _ => tt; n_neg := fun _ => tt |}.
Theorem ulane_related : lanes_related ulane zlane64 (fun _ _ => True).
Proof. split; intros; repeat split. Qed.
Lemma unit_F2 : forall (l : list Z), Forall2 (fun (_ : unit) (_ : Z) => True) (repeat tt (length l)) l.
Proof. induction l; cbn; constructor; auto. Qed.
Lemma unit_regs : forall vs, vregs_ok vs -> Forall2 (Forall2 (fun (_ : unit) (_ : Z) => True)) (repeat (repeat tt 4) 32) vs.
Proof.
  intros vs [L F]. rewrite <- L. clear L. induction F as [|v vs Hv F IH]; cbn [length repeat]; constructor; auto.
  change (Forall2 (fun (_ : unit) (_ : Z) => True) (repeat tt 4) v). rewrite <- Hv. apply unit_F2.
Qed.
Definition urun (p : list instr) (args : list nat) (lens : list nat) : mstate64 unit :=
  run64 ulane p (enter (repeat (repeat tt 4) 32) (map (fun a => (a, 0%nat)) args) (repeat tt 28) (map (repeat tt) lens)).
Lemma freeze_256 : bad (urun freeze_prog [0; 1]%nat [256; 4]%nat) = true.
Proof. vm_compute. reflexivity. Qed.
Lemma freeze_288 : bad (urun freeze_prog [0; 1]%nat [288; 4]%nat) = false.
Proof. vm_compute. reflexivity. Qed.
(** Whatever the arrays hold, a call goes out of bounds exactly when the run over the one-point lane does. *)
Lemma call_bad : forall p vs junk args arrays, regs64 vs junk ->
  elem_call p vs junk args arrays = None <-> bad (urun p args (map (@length Z) arrays)) = true.
Proof.
  intros p vs junk args arrays [HV HJ]. unfold elem_call, urun, leave.
  assert (H : RS64 (fun (_ : unit) (_ : Z) => True)
    (enter (repeat (repeat tt 4) 32) (map (fun a => (a, 0%nat)) args) (repeat tt 28) (map (repeat tt) (map (@length Z) arrays)))
    (enter vs (map (fun a => (a, 0%nat)) args) junk arrays)).
  { split; unfold enter; cbn [vr xr ar bad].
    - apply unit_regs. exact HV.
    - apply Forall2_app.
      + induction args as [|a args IH]; cbn; constructor; [constructor|exact IH].
      + rewrite <- HJ. clear. induction junk as [|x junk IH]; cbn; constructor; [constructor; exact Logic.I|exact IH].
    - clear. induction arrays as [|x arrays IH]; cbn; constructor; [apply unit_F2|exact IH].
    - reflexivity. }
  apply (run64_R ulane zlane64 _ ulane_related p) in H. destruct H as [_ _ _ H]. rewrite H.
  set (b := bad (run64 zlane64 p (enter vs (map (fun a : nat => (a, 0%nat)) args) junk arrays))). clearbody b.
  destruct b; (split; [intro E|intro E]); first [reflexivity|discriminate E|idtac].
Qed.
(** poly.c 94-98 with __asm_poly.S: [poly_freeze] reads and writes past the end of its polynomial,
    for every polynomial and every content of the registers; it needs room for 288 coefficients. *)
Theorem freeze64_out_of_bounds : forall vs junk a, regs64 vs junk -> length a = 256%nat -> freeze64 vs junk a = None.
Proof.
  intros vs junk a R L. unfold freeze64. assert (E : elem_call freeze_prog vs junk [0; 1]%nat [a; mont_const] = None).
  { apply (call_bad _ _ _ _ _ R). cbn [map]. rewrite L. exact freeze_256. }
  rewrite E. reflexivity.
Qed.
Theorem freeze64_needs_288 : forall vs junk a, regs64 vs junk -> length a = 288%nat -> elem_call freeze_prog vs junk [0; 1]%nat [a; mont_const] <> None.
Proof.
  intros vs junk a R L E. apply (call_bad _ _ _ _ _ R) in E. cbn [map] in E. rewrite L in E.
  change (List.length mont_const) with 4%nat in E. rewrite freeze_288 in E. discriminate E.
Qed.
