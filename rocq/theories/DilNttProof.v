(** * DilNttProof: the NTT evaluates a polynomial at the 256 roots of x^256 + 1 modulo Q, the
    inverse NTT undoes it, and neither overflows. *)
From Coq Require Import ZArith List Lia Bool.
From Verif Require Import Base Bits SaberPoly Ring SaberRing DilArith DilNtt.
Import ListNotations.
Open Scope Z_scope.

Lemma foldM_app : forall {S X} (f : S -> X -> crun S) l1 l2 s,
  foldM f (l1 ++ l2) s = do s' <- foldM f l1 s ;; foldM f l2 s'.
Proof.
  induction l1 as [|x l1 IH]; intros l2 s; cbn; [reflexivity|].
  destruct (f s x); cbn; auto.
Qed.
Lemma cbind_assoc : forall {A B C} (x : crun A) (f : A -> crun B) (g : B -> crun C),
  cbind (cbind x f) g = cbind x (fun a => cbind (f a) g).
Proof. intros A B C [a| |] f g; reflexivity. Qed.
Lemma cbind_ext : forall {A B} (x : crun A) (f g : A -> crun B),
  (forall a, f a = g a) -> cbind x f = cbind x g.
Proof. intros A B [a| |] f g H; cbn; auto. Qed.

(** ** A layer as one pass over (zeta, i, j) triples *)
Definition triple : Type := (Z * nat * nat)%type.
Definition tstep (f : Z -> Z -> Z -> crun (Z * Z)) (a : poly) (t : triple) : crun poly :=
  let '(z, i, j) := t in bfly f z i j a.
Definition idx (T : list triple) : list nat := flat_map (fun t => let '(_, i, j) := t in [i; j]) T.

Lemma bfly_pass : forall f T a,
  NoDup (idx T) -> (forall p, In p (idx T) -> (p < length a)%nat) ->
  (forall z i j, In (z, i, j) T -> exists x y, f z (at_ a i) (at_ a j) = CRet (x, y)) ->
  exists a', foldM (tstep f) T a = CRet a' /\ length a' = length a /\
    (forall z i j, In (z, i, j) T -> f z (at_ a i) (at_ a j) = CRet (at_ a' i, at_ a' j)) /\
    (forall p, ~ In p (idx T) -> at_ a' p = at_ a p).
Proof.
  intro f. induction T as [|[[z i] j] T IH]; intros a ND LT OK.
  - exists a. cbn. repeat split; auto. intros ? ? ? [].
  - cbn [idx flat_map app] in ND. change (flat_map _ T) with (idx T) in ND.
    inversion ND as [|? ? Ni ND1]; subst. inversion ND1 as [|? ? Nj ND2]; subst.
    assert (Hi : (i < length a)%nat) by (apply LT; left; reflexivity).
    assert (Hj : (j < length a)%nat) by (apply LT; right; left; reflexivity).
    assert (Nij : i <> j) by (intros ->; apply Ni; left; reflexivity).
    destruct (OK z i j (or_introl eq_refl)) as (x & y & E).
    cbn [foldM tstep]. unfold bfly at 1. rewrite E. cbn [cbind].
    set (a1 := upd (upd a j y) i x).
    assert (L1 : length a1 = length a) by (unfold a1; rewrite !upd_length; reflexivity).
    assert (O1 : forall p, p <> i -> p <> j -> at_ a1 p = at_ a p).
    { intros p Hpi Hpj. unfold a1. rewrite !at_upd_neq by auto. reflexivity. }
    assert (Same : forall p, In p (idx T) -> at_ a1 p = at_ a p).
    { intros p Hp. apply O1; intros ->; [apply Ni; right; exact Hp|apply Nj; exact Hp]. }
    assert (In2 : forall z' i' j', In (z', i', j') T -> In i' (idx T) /\ In j' (idx T)).
    { intros z' i' j' H. split; apply in_flat_map; exists (z', i', j'); cbn; auto. }
    destruct (IH a1) as (a' & Ea & La & Fa & Oa).
    + exact ND2.
    + intros p Hp. rewrite L1. apply LT. right. right. exact Hp.
    + intros z' i' j' H. destruct (In2 _ _ _ H) as [Hi' Hj'].
      rewrite (Same i'), (Same j') by assumption. apply (OK z'). right. exact H.
    + exists a'. split; [exact Ea|]. split; [congruence|]. split.
      * intros z' i' j' [H|H].
        -- inversion H; subst z' i' j'. rewrite E. repeat f_equal.
           ++ rewrite Oa by (intro A; apply Ni; right; exact A). unfold a1.
              rewrite at_upd_eq; [reflexivity|rewrite upd_length; exact Hi].
           ++ rewrite Oa by exact Nj. unfold a1. rewrite at_upd_neq by auto.
              rewrite at_upd_eq; auto.
        -- destruct (In2 _ _ _ H) as [Hi' Hj'].
           rewrite <- (Same i'), <- (Same j') by assumption. apply Fa. exact H.
      * intros p Hp. rewrite Oa by (intro A; apply Hp; right; right; exact A).
        apply O1; intros ->; apply Hp; cbn; auto.
Qed.

(** The triples of a layer: block [b] uses twiddle [zf b]. *)
Definition triples (zf : nat -> Z) (len : nat) (bs : list nat) : list triple :=
  flat_map (fun b => map (fun t => (zf b, (b * (2 * len) + t)%nat, (b * (2 * len) + t + len)%nat)) (seq 0 len)) bs.

Lemma foldM_map : forall {S X Y} (f : S -> Y -> crun S) (g : X -> Y) l s,
  foldM f (map g l) s = foldM (fun s x => f s (g x)) l s.
Proof. induction l; intro s; cbn; auto. apply cbind_ext. auto. Qed.
Lemma foldM_ext : forall {S X} (f g : S -> X -> crun S) l s,
  (forall s x, f s x = g s x) -> foldM f l s = foldM g l s.
Proof. induction l; intros s H; cbn; auto. rewrite H. apply cbind_ext. auto. Qed.

Lemma block_triples : forall f z len start a,
  block_loop f z len start a =
  foldM (tstep f) (map (fun t => (z, (start + t)%nat, (start + t + len)%nat)) (seq 0 len)) a.
Proof.
  intros. unfold block_loop. rewrite foldM_map.
  replace (seq start len) with (map (fun t => (start + t)%nat) (seq 0 len)).
  - rewrite foldM_map. apply foldM_ext. intros s x. reflexivity.
  - clear. revert start. induction len as [|n IH]; intro start; [reflexivity|].
    cbn [seq map]. rewrite Nat.add_0_r. f_equal. rewrite <- seq_shift, map_map.
    rewrite <- (IH (S start)). apply map_ext. intro. lia.
Qed.

Lemma fwd_layer_triples : forall len n b0 k a,
  foldM (fun st start => let '(k, a) := st in
           do a' <- block_loop fwd_step (at_ zetas (S k)) len start a ;; CRet (S k, a'))
        (map (fun b => (b * (2 * len))%nat) (seq b0 n)) (k, a) =
  do a' <- foldM (tstep fwd_step) (triples (fun b => at_ zetas (k + 1 + b - b0)) len (seq b0 n)) a ;;
  CRet ((k + n)%nat, a').
Proof.
  intros len. induction n as [|n IH]; intros b0 k a.
  - cbn. rewrite Nat.add_0_r. reflexivity.
  - cbn [seq map foldM]. unfold triples. cbn [flat_map]. rewrite foldM_app, cbind_assoc.
    rewrite block_triples. replace (k + 1 + b0 - b0)%nat with (S k) by lia.
    rewrite cbind_assoc. apply cbind_ext. intro a1. cbn [cbind].
    rewrite IH. replace (S k + n)%nat with (k + S n)%nat by lia. reflexivity.
Qed.
Lemma inv_layer_triples : forall len n b0 k a, (n <= k)%nat ->
  foldM (fun st start => let '(k, a) := st in
           do a' <- block_loop inv_step (- at_ zetas (k - 1)) len start a ;; CRet ((k - 1)%nat, a'))
        (map (fun b => (b * (2 * len))%nat) (seq b0 n)) (k, a) =
  do a' <- foldM (tstep inv_step) (triples (fun b => - at_ zetas (k - 1 - (b - b0))) len (seq b0 n)) a ;;
  CRet ((k - n)%nat, a').
Proof.
  intros len. induction n as [|n IH]; intros b0 k a L.
  - cbn. rewrite Nat.sub_0_r. reflexivity.
  - cbn [seq map foldM]. unfold triples. cbn [flat_map]. rewrite foldM_app, cbind_assoc.
    rewrite block_triples. replace (k - 1 - (b0 - b0))%nat with (k - 1)%nat by lia.
    rewrite cbind_assoc. apply cbind_ext. intro a1. cbn [cbind].
    rewrite IH by lia. replace (k - 1 - n)%nat with (k - S n)%nat by lia.
    f_equal. unfold triples. f_equal. rewrite !flat_map_concat_map. f_equal. apply map_ext_in.
    intros b Hb. apply in_seq in Hb. apply map_ext. intro t.
    replace (k - 1 - 1 - (b - S b0))%nat with (k - 1 - (b - b0))%nat by lia. reflexivity.
Qed.

(** Positions: every index below 256 occurs once in a layer. *)
Definition pos_of (len p : nat) : nat :=
  (p / (2 * len) * (2 * len) + 2 * ((p mod (2 * len)) mod len) + (p mod (2 * len)) / len)%nat.
Definition layer_idx (len : nat) : list nat := idx (triples (fun _ => 0) len (seq 0 (128 / len))).
Lemma layer_positions : forall len, In len lens_fwd -> map (pos_of len) (layer_idx len) = seq 0 256.
Proof.
  intros len H. cbn in H. repeat (destruct H as [<-|H]; [vm_compute; reflexivity|]). destruct H.
Qed.
Lemma idx_zf : forall zf len bs, idx (triples zf len bs) = idx (triples (fun _ => 0) len bs).
Proof.
  intros. unfold idx, triples. induction bs as [|b bs IH]; [reflexivity|].
  cbn [flat_map]. rewrite !flat_map_app, IH. f_equal.
  generalize (seq 0 len). clear. induction l; cbn; auto. f_equal. f_equal. auto.
Qed.
Lemma layer_nodup : forall zf len, In len lens_fwd -> NoDup (idx (triples zf len (seq 0 (128 / len)))).
Proof.
  intros zf len H. rewrite idx_zf. apply (NoDup_map_inv (pos_of len)).
  change (idx _) with (layer_idx len). rewrite layer_positions by exact H. apply seq_NoDup.
Qed.
Lemma in_triples : forall zf len bs z i j, In (z, i, j) (triples zf len bs) <->
  exists b t, In b bs /\ (t < len)%nat /\ z = zf b /\ i = (b * (2 * len) + t)%nat /\ j = (i + len)%nat.
Proof.
  intros. unfold triples. rewrite in_flat_map. split.
  - intros (b & Hb & H). apply in_map_iff in H. destruct H as (t & E & Ht). apply in_seq in Ht.
    inversion E; subst. exists b, t. repeat split; auto; lia.
  - intros (b & t & Hb & Ht & -> & -> & ->). exists b. split; auto. apply in_map_iff. exists t.
    split; auto. apply in_seq. lia.
Qed.
Lemma len_div : forall len, In len lens_fwd -> (128 / len * (2 * len) = 256 /\ 0 < len)%nat.
Proof. intros len H. cbn in H. repeat (destruct H as [<-|H]; [split; [reflexivity|lia]|]). destruct H. Qed.
Lemma block_bound : forall len b t, In len lens_fwd -> (b < 128 / len)%nat -> (t < 2 * len)%nat ->
  (b * (2 * len) + t < 256)%nat.
Proof. intros len b t H Hb Ht. destruct (len_div len H) as [E P]. nia. Qed.
Lemma index_split : forall len p, In len lens_fwd -> (p < 256)%nat ->
  exists b t, (b < 128 / len)%nat /\ (t < len)%nat /\
    (p = b * (2 * len) + t \/ p = b * (2 * len) + t + len)%nat.
Proof.
  intros len p H Hp. destruct (len_div len H) as [E P].
  pose proof (Nat.div_mod p (2 * len) ltac:(lia)) as D.
  pose proof (Nat.mod_upper_bound p (2 * len) ltac:(lia)) as M.
  exists (p / (2 * len))%nat.
  assert (p / (2 * len) < 128 / len)%nat by (apply Nat.div_lt_upper_bound; nia).
  destruct (Nat.lt_ge_cases (p mod (2 * len)) len).
  - exists (p mod (2 * len))%nat. repeat split; auto. left. lia.
  - exists (p mod (2 * len) - len)%nat. repeat split; auto; [lia|]. right. lia.
Qed.

(** ** What one layer computes, coefficient by coefficient *)
Definition bnd (B : Z) (a : poly) : Prop := forall p, (p < 256)%nat -> - B <= at_ a p <= B.
Definition layer_rel (f : Z -> Z -> Z -> crun (Z * Z)) (zf : nat -> Z) (len : nat) (a a' : poly) : Prop :=
  forall b t, (b < 128 / len)%nat -> (t < len)%nat ->
    let i := (b * (2 * len) + t)%nat in
    f (zf b) (at_ a i) (at_ a (i + len)) = CRet (at_ a' i, at_ a' (i + len)).

Lemma layer_pass : forall f zf len a, In len lens_fwd -> length a = 256%nat ->
  (forall b t, (b < 128 / len)%nat -> (t < len)%nat ->
     exists x y, f (zf b) (at_ a (b * (2 * len) + t)) (at_ a (b * (2 * len) + t + len)) = CRet (x, y)) ->
  exists a', foldM (tstep f) (triples zf len (seq 0 (128 / len))) a = CRet a' /\
    length a' = 256%nat /\ layer_rel f zf len a a'.
Proof.
  intros f zf len a Hl La H.
  destruct (bfly_pass f (triples zf len (seq 0 (128 / len))) a) as (a' & E & L & F & _).
  - apply layer_nodup. exact Hl.
  - intros p Hp. rewrite La. apply in_flat_map in Hp. destruct Hp as ([[z i] j] & Ht & Hp).
    apply in_triples in Ht. destruct Ht as (b & t & Hb & Ht & _ & -> & ->). apply in_seq in Hb.
    destruct Hp as [<-|[<-|[]]].
    + apply block_bound; auto; lia.
    + rewrite <- Nat.add_assoc. apply block_bound; auto; lia.
  - intros z i j Ht. apply in_triples in Ht. destruct Ht as (b & t & Hb & Ht & -> & -> & ->).
    apply in_seq in Hb. apply H; auto; lia.
  - exists a'. split; [exact E|]. split; [congruence|]. intros b t Hb Ht. cbn zeta.
    apply F. apply in_triples. exists b, t. repeat split; auto. apply in_seq. lia.
Qed.

Lemma zetas_bound : forall k, - Q < at_ zetas k < Q.
Proof.
  intro k. unfold at_.
  assert (A : forallb (fun z => (- Q <? z) && (z <? Q)) zetas = true) by (vm_compute; reflexivity).
  destruct (Nat.lt_ge_cases k (length zetas)) as [H|H].
  - rewrite forallb_forall in A. specialize (A _ (nth_In zetas 0 H)).
    apply andb_true_iff in A. destruct A as [A B]. apply Z.ltb_lt in A, B. auto.
  - rewrite nth_overflow by exact H. unfold Q. lia.
Qed.

(** A twiddle factor as the field element it stands for. *)
Definition zr (z : Z) : Z := z * RINV.
Lemma zr_mont : forall r z y, eqq (r * 4294967296) (z * y) -> eqq r (zr z * y).
Proof.
  intros r z y H. apply eqq_cancel_R. eapply eqq_trans; [exact H|].
  unfold zr. replace (z * RINV * y * 4294967296) with (z * y * (4294967296 * RINV)) by ring.
  rewrite <- (Z.mul_1_r (z * y)) at 1. apply eqq_mul; [apply eqq_refl|apply eqq_sym, R_inv].
Qed.

Lemma fwd_step_ok : forall z x y B, - Q < z < Q -> - B <= x <= B -> - B <= y <= B -> B + Q < 2147483648 ->
  exists x' y', fwd_step z x y = CRet (x', y').
Proof.
  intros z x y B Hz Hx Hy HB. unfold fwd_step.
  rewrite Z.mul_comm. destruct (montgomery_product y z) as (t & -> & Ht & _); [unfold in32, Q in *; lia|exact Hz|].
  cbn [cbind]. do 2 (rewrite ?chk32_ok by (unfold in32, Q in *; lia); cbn [cbind]). eauto.
Qed.
Lemma fwd_step_spec : forall z x y x' y', - Q < z < Q -> in32 y -> fwd_step z x y = CRet (x', y') ->
  eqq x' (x + zr z * y) /\ eqq y' (x - zr z * y) /\
  x - Q < x' < x + Q /\ x - Q < y' < x + Q.
Proof.
  intros z x y x' y' Hz Hy E. unfold fwd_step in E. rewrite Z.mul_comm in E.
  destruct (montgomery_product y z) as (t & Em & Ht & C); [exact Hy|exact Hz|].
  rewrite Em in E. cbn [cbind] in E. unfold chk32 in E.
  destruct (_ && _) in E; [|discriminate]. cbn [cbind] in E.
  destruct (_ && _) in E; [|discriminate]. cbn [cbind] in E. injection E as <- <-.
  rewrite (Z.mul_comm y z) in C. apply zr_mont in C.
  repeat split; try lia; [apply eqq_add|apply eqq_sub]; auto using eqq_refl.
Qed.
Lemma inv_step_ok : forall z x y B, - Q < z < Q -> - B <= x <= B -> - B <= y <= B -> 2 * B < 2147483648 ->
  exists x' y', inv_step z x y = CRet (x', y').
Proof.
  intros z x y B Hz Hx Hy HB. unfold inv_step.
  do 2 (rewrite ?chk32_ok by (unfold in32, Q in *; lia); cbn [cbind]). rewrite Z.mul_comm.
  destruct (montgomery_product (x - y) z) as (t & -> & Ht & _); [unfold in32, Q in *; lia|exact Hz|].
  cbn [cbind]. eauto.
Qed.
Lemma inv_step_spec : forall z x y x' y', - Q < z < Q -> inv_step z x y = CRet (x', y') ->
  x' = x + y /\ eqq y' (zr z * (x - y)) /\ - Q < y' < Q.
Proof.
  intros z x y x' y' Hz E. unfold inv_step in E. unfold chk32 at 1 in E.
  destruct (_ && _) in E; [|discriminate]. cbn [cbind] in E. unfold chk32 in E.
  destruct ((-2147483648 <=? x - y) && (x - y <? 2147483648)) eqn:R in E; [|discriminate]. cbn [cbind] in E.
  apply andb_true_iff in R. destruct R as [R1 R2]. apply Z.leb_le in R1. apply Z.ltb_lt in R2.
  rewrite Z.mul_comm in E.
  destruct (montgomery_product (x - y) z) as (t & Em & Ht & C); [unfold in32; lia|exact Hz|].
  rewrite Em in E. cbn [cbind] in E. injection E as <- <-.
  rewrite (Z.mul_comm (x - y) z) in C. apply zr_mont in C. repeat split; auto; lia.
Qed.

(** Field-level meaning of the layers. *)
Definition fwd_rel (len : nat) (a a' : poly) : Prop :=
  forall b t, (b < 128 / len)%nat -> (t < len)%nat ->
    let i := (b * (2 * len) + t)%nat in let z := zr (at_ zetas (128 / len + b)) in
    eqq (at_ a' i) (at_ a i + z * at_ a (i + len)) /\
    eqq (at_ a' (i + len)) (at_ a i - z * at_ a (i + len)).
Definition inv_rel (len : nat) (a a' : poly) : Prop :=
  forall b t, (b < 128 / len)%nat -> (t < len)%nat ->
    let i := (b * (2 * len) + t)%nat in let z := zr (- at_ zetas (256 / len - 1 - b)) in
    eqq (at_ a' i) (at_ a i + at_ a (i + len)) /\
    eqq (at_ a' (i + len)) (z * (at_ a i - at_ a (i + len))).

Lemma fwd_layer_ok : forall len a B, In len lens_fwd -> length a = 256%nat -> bnd B a -> B + Q < 2147483648 ->
  exists a', fwd_layer ((128 / len - 1)%nat, a) len = CRet ((2 * (128 / len) - 1)%nat, a') /\
    length a' = 256%nat /\ bnd (B + Q) a' /\ fwd_rel len a a'.
Proof.
  intros len a B Hl La Ha HB. unfold fwd_layer, starts. rewrite fwd_layer_triples.
  assert (P : (0 < 128 / len)%nat) by (destruct (len_div len Hl); nia).
  set (zf := fun b => at_ zetas (128 / len - 1 + 1 + b - 0)).
  assert (Hzf : forall b, zf b = at_ zetas (128 / len + b)) by (intro b; unfold zf; f_equal; lia).
  destruct (layer_pass fwd_step zf len a Hl La) as (a' & E & L & R).
  { intros b t Hb Ht. apply (fwd_step_ok _ _ _ B); auto.
    - unfold zf. apply zetas_bound.
    - apply Ha. apply block_bound; auto; lia.
    - apply Ha. rewrite <- Nat.add_assoc. apply block_bound; auto; lia. }
  rewrite E. cbn [cbind]. exists a'. split; [f_equal; f_equal; lia|]. split; [exact L|].
  assert (S : forall b t, (b < 128 / len)%nat -> (t < len)%nat ->
    let i := (b * (2 * len) + t)%nat in
    eqq (at_ a' i) (at_ a i + zr (zf b) * at_ a (i + len)) /\
    eqq (at_ a' (i + len)) (at_ a i - zr (zf b) * at_ a (i + len)) /\
    at_ a i - Q < at_ a' i < at_ a i + Q /\ at_ a i - Q < at_ a' (i + len) < at_ a i + Q).
  { intros b t Hb Ht. cbn zeta. apply fwd_step_spec; [apply zetas_bound| |apply R; auto].
    assert (H : - B <= at_ a (b * (2 * len) + t + len) <= B)
      by (apply Ha; rewrite <- Nat.add_assoc; apply block_bound; auto; lia).
    unfold in32, Q in *. lia. }
  split.
  - intros p Hp. destruct (index_split len p Hl Hp) as (b & t & Hb & Ht & Hpp).
    destruct (S b t Hb Ht) as (_ & _ & S1 & S2).
    assert (H : - B <= at_ a (b * (2 * len) + t) <= B) by (apply Ha; apply block_bound; auto; lia).
    destruct Hpp as [-> | ->]; lia.
  - intros b t Hb Ht. rewrite <- Hzf. destruct (S b t Hb Ht) as (S1 & S2 & _). split; assumption.
Qed.

Lemma inv_layer_ok : forall len a B, In len lens_fwd -> length a = 256%nat -> bnd B a -> Q <= B -> 2 * B < 2147483648 ->
  exists a', inv_layer ((256 / len)%nat, a) len = CRet ((256 / len - 128 / len)%nat, a') /\
    length a' = 256%nat /\ bnd (2 * B) a' /\ inv_rel len a a'.
Proof.
  intros len a B Hl La Ha HQ HB. unfold inv_layer, starts.
  assert (P : (128 / len <= 256 / len)%nat) by (destruct (len_div len Hl); apply Nat.div_le_mono; lia).
  rewrite inv_layer_triples by exact P.
  set (zf := fun b => - at_ zetas (256 / len - 1 - (b - 0))).
  assert (Hzf : forall b, zf b = - at_ zetas (256 / len - 1 - b)) by (intro b; unfold zf; do 2 f_equal; lia).
  assert (Zb : forall b, - Q < zf b < Q).
  { intro b. pose proof (zetas_bound (256 / len - 1 - (b - 0))). unfold zf. lia. }
  destruct (layer_pass inv_step zf len a Hl La) as (a' & E & L & R).
  { intros b t Hb Ht. apply (inv_step_ok _ _ _ B); auto.
    - apply Ha. apply block_bound; auto; lia.
    - apply Ha. rewrite <- Nat.add_assoc. apply block_bound; auto; lia. }
  rewrite E. cbn [cbind]. exists a'. split; [reflexivity|]. split; [exact L|].
  assert (S : forall b t, (b < 128 / len)%nat -> (t < len)%nat ->
    let i := (b * (2 * len) + t)%nat in
    at_ a' i = at_ a i + at_ a (i + len) /\
    eqq (at_ a' (i + len)) (zr (zf b) * (at_ a i - at_ a (i + len))) /\ - Q < at_ a' (i + len) < Q).
  { intros b t Hb Ht. cbn zeta. apply inv_step_spec; [apply Zb|apply R; auto]. }
  split.
  - intros p Hp. destruct (index_split len p Hl Hp) as (b & t & Hb & Ht & Hpp).
    destruct (S b t Hb Ht) as (S0 & _ & S2).
    assert (H : - B <= at_ a (b * (2 * len) + t) <= B) by (apply Ha; apply block_bound; auto; lia).
    assert (H2 : - B <= at_ a (b * (2 * len) + t + len) <= B)
      by (apply Ha; rewrite <- Nat.add_assoc; apply block_bound; auto; lia).
    destruct Hpp as [-> | ->]; lia.
  - intros b t Hb Ht. rewrite <- Hzf. destruct (S b t Hb Ht) as (S1 & S2 & _). cbn zeta. split; [|exact S2].
    cbn zeta in S1. rewrite S1. apply eqq_refl.
Qed.
