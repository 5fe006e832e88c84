(** * DilHint: the hint encoding of packing.c is canonical, and signatures are decoded uniquely. *)
From Coq Require Import ZArith List Lia Bool.
From Verif Require Import Base Bits SaberPoly SaberCodec SaberRing DilArith DilNtt DilPoly DilPack DilCodec DilCodec2.
Import ListNotations.
Open Scope Z_scope.

(** ** Specification: a 0/1 row is the set of its positions. *)
Definition bit (x : Z) : Prop := x = 0 \/ x = 1.
Definition positions (row : poly) : list nat := filter (fun j => negb (at_ row j =? 0)) (seq 0 256).
(** Running totals of the number of positions. *)
Fixpoint totals (k : nat) (h : polyvec) : list nat :=
  match h with [] => [] | r :: t => (k + length (positions r))%nat :: totals (k + length (positions r)) t end.
(** The encoding: all positions row after row, zero padding to 80 bytes, the running totals. *)
Definition hint_bytes (h : polyvec) : bytes :=
  let ps := flat_map positions h in
  map Z.of_nat ps ++ repeat 0 (OMEGA - length ps) ++ map Z.of_nat (totals 0 h).

(** ** The encoder computes it *)
Lemma upd_app_eq : forall (a b : list Z) x v, upd (a ++ x :: b) (length a) v = a ++ v :: b.
Proof. induction a as [|y a IH]; intros b x v; cbn; [reflexivity|]. f_equal. apply IH. Qed.

Lemma cbind_ret : forall {A B} (a : A) (f : A -> crun B), cbind (CRet a) f = f a.
Proof. reflexivity. Qed.
Lemma foldM_cons : forall {S X} (f : S -> X -> crun S) x l s,
  foldM f (x :: l) s = (do s' <- f s x ;; foldM f l s').
Proof. reflexivity. Qed.
Lemma combine_seq_S : forall {X} i m (r : X) h,
  combine (seq i (S m)) (r :: h) = (i, r) :: combine (seq (S i) m) h.
Proof. reflexivity. Qed.
Lemma store_eq : forall b i v, store b i v = if (i <? length b)%nat then CRet (upd b i v) else CUB.
Proof. reflexivity. Qed.
Lemma hint_row_eq : forall b k i row, hint_row (b, k) (i, row) =
  (do (b, k) <- foldM (hint_inner row) (seq 0 256) (b, k) ;;
   do b' <- store b (OMEGA + i) (u8 (Z.of_nat k)) ;; CRet (b', k)).
Proof. reflexivity. Qed.

Lemma hint_inner_ok : forall row l pre n tail,
  Forall (fun j => (j < 256)%nat) l ->
  let ns := filter (fun j => negb (at_ row j =? 0)) l in
  (length ns <= n)%nat ->
  foldM (hint_inner row) l (pre ++ repeat 0 n ++ tail, length pre) =
  CRet ((pre ++ map Z.of_nat ns) ++ repeat 0 (n - length ns) ++ tail, (length pre + length ns)%nat).
Proof.
  intros row l. induction l as [|j l IH]; intros pre n tail F ns Hn.
  - cbn. rewrite app_nil_r, Nat.sub_0_r, Nat.add_0_r. reflexivity.
  - inversion F as [|? ? Hj F']; subst. unfold ns in *. clear ns. cbn [filter] in *.
    cbn [foldM hint_inner]. destruct (at_ row j =? 0) eqn:E; cbn [negb] in *.
    + cbn [cbind]. apply IH; auto.
    + cbn [length] in Hn. destruct n as [|n]; [lia|].
      unfold store. cbn [repeat app].
      assert (Lt : (length pre <? length (pre ++ 0%Z :: repeat 0%Z n ++ tail))%nat = true).
      { apply Nat.ltb_lt. rewrite app_length. cbn. lia. }
      rewrite Lt. cbn [cbind]. rewrite upd_app_eq.
      rewrite u8_id by (unfold is_byte; lia).
      replace (pre ++ Z.of_nat j :: repeat 0 n ++ tail) with ((pre ++ [Z.of_nat j]) ++ repeat 0 n ++ tail)
        by (rewrite <- app_assoc; reflexivity).
      replace (S (length pre)) with (length (pre ++ [Z.of_nat j])) by (rewrite app_length; cbn; lia).
      rewrite IH by (auto; lia). cbn [map length]. f_equal. f_equal.
      * rewrite <- !app_assoc. cbn [app]. reflexivity.
      * rewrite app_length. cbn. lia.
Qed.

Lemma seq_lt : forall n m, Forall (fun j => (j < n + m)%nat) (seq n m).
Proof. intros. apply Forall_forall. intros j Hj. apply in_seq in Hj. lia. Qed.

Lemma hint_inner_row : forall row pre n tail, (length (positions row) <= n)%nat ->
  foldM (hint_inner row) (seq 0 256) (pre ++ repeat 0 n ++ tail, length pre) =
  CRet ((pre ++ map Z.of_nat (positions row)) ++ repeat 0 (n - length (positions row)) ++ tail,
        (length pre + length (positions row))%nat).
Proof.
  intros row pre n tail. unfold positions.
  assert (F : Forall (fun j => (j < 256)%nat) (seq 0 256))
    by (apply Forall_forall; intros j Hj; apply in_seq in Hj; lia).
  revert F. generalize (seq 0 256). intros l F H. exact (hint_inner_ok row l pre n tail F H).
Qed.

Local Opaque positions hint_inner hint_row OMEGA store u8.
Lemma hint_rows_ok : forall h i pre n cs m,
  (length (flat_map positions h) <= n)%nat -> (length pre + n = OMEGA)%nat ->
  length cs = i -> (length h = m)%nat ->
  exists k, foldM hint_row (combine (seq i m) h) (pre ++ repeat 0 n ++ cs ++ repeat 0 m, length pre) =
  CRet ((pre ++ map Z.of_nat (flat_map positions h)) ++ repeat 0 (n - length (flat_map positions h)) ++
        cs ++ map Z.of_nat (totals (length pre) h), k).
Proof.
  intro h. induction h as [|r h IH]; intros i pre n cs m Hn Hp Hi Hm.
  - cbn in Hm. subst m. cbn. eexists. rewrite Nat.sub_0_r, !app_nil_r. reflexivity.
  - destruct m as [|m]; [discriminate Hm|]. cbn [length] in Hm.
    cbn [flat_map] in *. rewrite app_length in Hn.
    rewrite combine_seq_S, foldM_cons, hint_row_eq.
    rewrite hint_inner_row by lia. rewrite cbind_ret.
    set (A := (pre ++ map Z.of_nat (positions r)) ++ repeat 0 (n - length (positions r))).
    assert (LA : length A = OMEGA) by (unfold A; rewrite !app_length, map_length, repeat_length; lia).
    replace ((pre ++ map Z.of_nat (positions r)) ++ repeat 0 (n - length (positions r)) ++ cs ++ repeat 0 (S m))
      with ((A ++ cs) ++ 0 :: repeat 0 m) by (unfold A; cbn [repeat]; rewrite <- !app_assoc; reflexivity).
    assert (LAc : length (A ++ cs) = (OMEGA + i)%nat) by (rewrite app_length; lia).
    rewrite store_eq, <- LAc, upd_app_eq.
    assert (Lt : (length (A ++ cs) <? length ((A ++ cs) ++ 0%Z :: repeat 0%Z m))%nat = true).
    { apply Nat.ltb_lt. rewrite (app_length (A ++ cs)). cbn. lia. }
    rewrite Lt. rewrite !cbind_ret.
    assert (K : (length pre + length (positions r) <= 80)%nat) by (change OMEGA with 80%nat in Hp; lia).
    rewrite u8_id by (unfold is_byte; lia).
    set (pre' := pre ++ map Z.of_nat (positions r)).
    assert (Lp : length pre' = (length pre + length (positions r))%nat)
      by (unfold pre'; rewrite app_length, map_length; lia).
    destruct (IH (S i) pre' (n - length (positions r))%nat (cs ++ [Z.of_nat (length pre')]) m) as [k Hk];
      try lia; [rewrite app_length; cbn; lia|].
    exists k.
    replace ((A ++ cs) ++ Z.of_nat (length pre + length (positions r)) :: repeat 0 m)
      with (pre' ++ repeat 0 (n - length (positions r)) ++ (cs ++ [Z.of_nat (length pre')]) ++ repeat 0 m)
      by (unfold A; fold pre'; rewrite Lp, <- !app_assoc; reflexivity).
    rewrite <- Lp, Hk. f_equal. f_equal.
    unfold pre'. rewrite map_app, !app_length, map_length, <- !app_assoc. cbn [app totals map].
    rewrite Nat.sub_add_distr. reflexivity.
Qed.

Local Transparent positions hint_inner hint_row OMEGA store u8.
Theorem pack_hint_ok : forall h, length h = 4%nat -> (length (flat_map positions h) <= OMEGA)%nat ->
  pack_hint h = CRet (hint_bytes h).
Proof.
  intros h L H. unfold pack_hint.
  destruct (hint_rows_ok h 0 [] OMEGA [] 4 H eq_refl eq_refl L) as [k E].
  cbn [app length] in E. rewrite repeat_app, E. cbn [cbind]. reflexivity.
Qed.

(** ** Sorted position lists *)
Fixpoint incr_from (x : Z) (l : list Z) : bool :=
  match l with [] => true | y :: r => (x <? y) && incr_from y r end.
Definition incr (l : list Z) : bool := match l with [] => true | x :: r => incr_from x r end.
Fixpoint marks (l : list Z) (row : poly) : poly :=
  match l with [] => row | x :: r => marks r (upd row (Z.to_nat x) 1) end.

Lemma incr_from_gt : forall l x, incr_from x l = true -> Forall (fun y => x < y) l /\ incr l = true.
Proof.
  induction l as [|y r IH]; intros x H; cbn in *; [auto|].
  apply andb_true_iff in H. destruct H as [H1 H2]. apply Z.ltb_lt in H1.
  split; [|exact H2]. constructor; [exact H1|]. destruct (IH y H2) as [F _].
  eapply Forall_impl; [|exact F]. cbv beta. lia.
Qed.
Lemma marks_length : forall l row, length (marks l row) = length row.
Proof. induction l; intro row; cbn; [reflexivity|]. rewrite IHl, upd_length. reflexivity. Qed.
Lemma at_marks_in : forall l row j, Forall (fun x => 0 <= x < Z.of_nat (length row)) l ->
  at_ (marks l row) j = if existsb (fun x => x =? Z.of_nat j) l then 1 else at_ row j.
Proof.
  induction l as [|x l IH]; intros row j F; cbn [marks existsb]; [reflexivity|].
  inversion F as [|? ? Hx F']; subst.
  rewrite IH by (rewrite upd_length; exact F').
  destruct (existsb _ l); [rewrite orb_true_r; reflexivity|]. rewrite orb_false_r.
  destruct (Z.eqb_spec x (Z.of_nat j)) as [->|N].
  - rewrite Nat2Z.id. apply at_upd_eq. lia.
  - apply at_upd_neq. lia.
Qed.
(** The positions of the row marked by a strictly increasing list are that list. *)
Lemma filter_sorted : forall n a l, incr l = true -> Forall (fun x => Z.of_nat a <= x < Z.of_nat (a + n)) l ->
  map Z.of_nat (filter (fun j => existsb (fun x => x =? Z.of_nat j) l) (seq a n)) = l.
Proof.
  induction n as [|n IH]; intros a l I F.
  - destruct l as [|x l]; [reflexivity|]. inversion F; subst. lia.
  - cbn [seq filter]. destruct l as [|x l].
    + cbn [existsb]. cbn. specialize (IH (S a) [] eq_refl (Forall_nil _)). exact IH.
    + cbn [incr] in I. destruct (incr_from_gt _ _ I) as [G I'].
      inversion F as [|? ? Hx F']; subst.
      destruct (Z.eq_dec x (Z.of_nat a)) as [->|N].
      * cbn [existsb]. rewrite Z.eqb_refl. cbn [orb map]. f_equal.
        etransitivity; [|apply (IH (S a) l I')].
        -- f_equal. apply filter_ext_in. intros j Hj. apply in_seq in Hj.
           destruct (Z.eqb_spec (Z.of_nat a) (Z.of_nat j)); [lia|reflexivity].
        -- apply Forall_forall. intros y Hy. rewrite Forall_forall in G, F'.
           specialize (G y Hy). specialize (F' y Hy). cbv beta in *. lia.
      * assert (X : existsb (fun y => y =? Z.of_nat a) (x :: l) = false).
        { apply not_true_iff_false. rewrite existsb_exists. intros (y & Hy & E).
          apply Z.eqb_eq in E. destruct Hy as [->|Hy]; [lia|].
          rewrite Forall_forall in G. specialize (G y Hy). lia. }
        rewrite X. apply IH; [exact I|].
        constructor; [lia|]. apply Forall_forall. intros y Hy. rewrite Forall_forall in G, F'.
        specialize (G y Hy). specialize (F' y Hy). cbv beta in *. lia.
Qed.
Lemma positions_marks : forall l, incr l = true -> Forall is_byte l ->
  map Z.of_nat (positions (marks l (repeat 0 256))) = l.
Proof.
  intros l I F. etransitivity; [|apply (filter_sorted 256 0 l I)].
  - f_equal. apply filter_ext_in. intros j Hj. apply in_seq in Hj.
    rewrite at_marks_in by (eapply Forall_impl; [|exact F]; unfold is_byte; cbv beta;
      rewrite repeat_length; lia).
    destruct (existsb _ l); [reflexivity|].
    unfold at_. rewrite nth_repeat. reflexivity.
  - eapply Forall_impl; [|exact F]. unfold is_byte. cbv beta. lia.
Qed.
Lemma marks_bits : forall l row, Forall bit row -> Forall bit (marks l row).
Proof.
  assert (U : forall row k, Forall bit row -> Forall bit (upd row k 1)).
  { induction row as [|x row IH]; intros k F; cbn; [constructor|].
    inversion F; subst. destruct k; constructor; auto. right. reflexivity. }
  induction l; intros row F; cbn; auto.
Qed.
Lemma incr_seq_filter : forall f n a, incr (map Z.of_nat (filter f (seq a n))) = true.
Proof.
  intro f.
  assert (G : forall n a x, x < Z.of_nat a -> incr_from x (map Z.of_nat (filter f (seq a n))) = true).
  { induction n as [|n IH]; intros a x H; [reflexivity|]. cbn [seq filter].
    destruct (f a); [|apply IH; lia]. cbn [map incr_from]. apply andb_true_iff. split; [apply Z.ltb_lt; lia|].
    apply IH. lia. }
  induction n as [|n IH]; intro a; [reflexivity|]. cbn [seq filter].
  destruct (f a); [|apply IH]. cbn [map incr]. apply G. lia.
Qed.
(** A 0/1 row is the row marked by its positions. *)
Lemma nth_at_ : forall (l : list Z) j, nth j l 0 = at_ l j. Proof. reflexivity. Qed.
Lemma in_positions : forall row i, In i (positions row) <-> ((i < 256)%nat /\ at_ row i <> 0).
Proof.
  intros row i. unfold positions. rewrite filter_In, in_seq, negb_true_iff, Z.eqb_neq. intuition lia.
Qed.
Lemma at_repeat0 : forall n j, at_ (repeat 0 n) j = 0.
Proof. intros. unfold at_. apply nth_repeat. Qed.
Lemma marks_back : forall n (ps : list nat) (row : poly), length row = n -> Forall bit row ->
  (forall i, In i ps <-> ((i < n)%nat /\ at_ row i <> 0)) ->
  marks (map Z.of_nat ps) (repeat 0 n) = row.
Proof.
  intros n ps row L F P. apply (nth_ext _ _ 0 0); [rewrite marks_length, repeat_length; auto|].
  rewrite marks_length, repeat_length. intros j Hj. rewrite !nth_at_.
  rewrite at_marks_in.
  - destruct (existsb (fun x => x =? Z.of_nat j) (map Z.of_nat ps)) eqn:E.
    + apply existsb_exists in E. destruct E as (x & Hx & E). apply in_map_iff in Hx.
      destruct Hx as (i & <- & Hi). apply Z.eqb_eq, Nat2Z.inj in E. subst i.
      apply P in Hi. destruct Hi as [_ Hi].
      assert (B : bit (at_ row j)) by (rewrite Forall_forall in F; apply F; apply nth_In; lia).
      destruct B as [B|B]; [contradiction|symmetry; exact B].
    + rewrite at_repeat0.
      destruct (Z.eq_dec (at_ row j) 0) as [->|N]; [reflexivity|exfalso].
      apply not_true_iff_false in E. apply E. apply existsb_exists. exists (Z.of_nat j).
      split; [|apply Z.eqb_refl]. apply in_map. apply P. auto.
  - apply Forall_map. apply Forall_forall. intros i Hi. apply P in Hi.
    rewrite repeat_length. lia.
Qed.
Lemma marks_positions : forall row, length row = 256%nat -> Forall bit row ->
  marks (map Z.of_nat (positions row)) (repeat 0 256) = row.
Proof. intros row L F. exact (marks_back 256 (positions row) row L F (in_positions row)). Qed.

Lemma incr_positions : forall row, incr (map Z.of_nat (positions row)) = true.
Proof. intro row. apply incr_seq_filter. Qed.
Local Opaque positions.

(** ** The decoder, segment by segment *)
Definition seg (b : bytes) (k n : nat) : list Z := map (at_ b) (seq k n).

Lemma unhint_inner_tail : forall b k n j row, (k < j)%nat ->
  unhint_inner b k (seq j n) row =
  if incr_from (at_ b (j - 1)) (seg b j n) then Some (marks (seg b j n) row) else None.
Proof.
  intros b k n. induction n as [|n IH]; intros j row H; [reflexivity|].
  cbn [seq unhint_inner seg map incr_from marks].
  assert (E : (k <? j)%nat = true) by (apply Nat.ltb_lt; exact H). rewrite E. cbn [andb].
  rewrite Z.leb_antisym. destruct (at_ b (j - 1) <? at_ b j); cbn [negb andb]; [|reflexivity].
  rewrite IH by lia. replace (S j - 1)%nat with j by lia. reflexivity.
Qed.
Lemma unhint_inner_ok : forall b k n row,
  unhint_inner b k (seq k n) row = if incr (seg b k n) then Some (marks (seg b k n) row) else None.
Proof.
  intros b k [|n] row; [reflexivity|].
  cbn [seq unhint_inner seg map incr marks]. rewrite Nat.ltb_irrefl. cbn [andb].
  rewrite unhint_inner_tail by lia. replace (S k - 1)%nat with k by lia. reflexivity.
Qed.

Lemma at_byte : forall b j, is_bytes b -> is_byte (at_ b j).
Proof.
  intros b j B. unfold at_. destruct (Nat.ltb_spec j (length b)).
  - unfold is_bytes in B. rewrite Forall_forall in B. apply B. apply nth_In. assumption.
  - rewrite nth_overflow by lia. unfold is_byte. lia.
Qed.
Lemma seg_bytes : forall b k n, is_bytes b -> Forall is_byte (seg b k n).
Proof. intros b k n B. apply Forall_map, Forall_forall. intros j _. apply at_byte. exact B. Qed.
Lemma seg_app : forall b k n m, seg b k (n + m) = seg b k n ++ seg b (k + n) m.
Proof. intros. unfold seg. rewrite seq_app, map_app. reflexivity. Qed.
Lemma seg_length : forall b k n, length (seg b k n) = n.
Proof. intros. unfold seg. rewrite map_length, seq_length. reflexivity. Qed.

(** A hint vector: rows of 256 bits. *)
Definition hint_vec (h : polyvec) : Prop := Forall (fun r => length r = 256%nat /\ Forall bit r) h.

Lemma zeros_bits : Forall bit (repeat 0 256).
Proof. apply Forall_forall. intros x Hx. apply repeat_spec in Hx. left. exact Hx. Qed.
Lemma Some_pair_inj : forall {A B} (a c : A) (b d : B), Some (a, b) = Some (c, d) -> a = c /\ b = d.
Proof. intros A B a c b d H. injection H. auto. Qed.
Lemma Some_triple_inj : forall {A B C} (a d : A) (b e : B) (c f : C),
  Some (a, b, c) = Some (d, e, f) -> a = d /\ b = e /\ c = f.
Proof. intros A B C a d b e c f H. injection H. auto. Qed.
Lemma cons_inj : forall {A} (a b : A) l m, a :: l = b :: m -> a = b /\ l = m.
Proof. intros A a b l m H. injection H. auto. Qed.
Lemma unhint_rows_inv : forall b, is_bytes b -> forall m i k h k',
  (k <= OMEGA)%nat -> unhint_rows b k (seq i m) = Some (h, k') ->
  length h = m /\ hint_vec h /\ (k <= k' <= OMEGA)%nat /\
  map Z.of_nat (flat_map positions h) = seg b k (k' - k) /\
  map Z.of_nat (totals k h) = map (fun t => at_ b (OMEGA + t)) (seq i m).
Proof.
  intros b B. induction m as [|m IH]; intros i k h k' Hk H.
  - cbn in H. injection H as <- <-. cbn. rewrite Nat.sub_diag. repeat split; try lia. constructor.
  - cbn [seq unhint_rows] in H. set (c := Z.to_nat (at_ b (OMEGA + i))) in H.
    destruct ((c <? k)%nat || (OMEGA <? c)%nat) eqn:E; [discriminate H|].
    apply orb_false_iff in E. destruct E as [E1 E2]. apply Nat.ltb_ge in E1, E2.
    rewrite unhint_inner_ok in H.
    destruct (incr (seg b k (c - k))) eqn:I; [|discriminate H].
    destruct (unhint_rows b c (seq (S i) m)) as [[rows k2]|] eqn:R; [|discriminate H].
    apply Some_pair_inj in H. destruct H as [<- <-].
    destruct (IH (S i) c rows k2 E2 R) as (L & V & K & P & T).
    pose proof (positions_marks _ I (seg_bytes b k (c - k) B)) as PM.
    assert (LP : length (positions (marks (seg b k (c - k)) (repeat 0 256))) = (c - k)%nat).
    { rewrite <- (map_length Z.of_nat), PM. apply seg_length. }
    split; [cbn; lia|]. split; [|split; [lia|split]].
    + constructor; [|exact V]. split; [rewrite marks_length; reflexivity|].
      apply marks_bits. exact zeros_bits.
    + cbn [flat_map]. rewrite map_app, PM, P.
      replace (k2 - k)%nat with ((c - k) + (k2 - c))%nat by lia.
      rewrite seg_app. do 2 f_equal. lia.
    + cbn [totals map seq]. rewrite LP. replace (k + (c - k))%nat with c by lia.
      f_equal; [|exact T]. unfold c. apply Z2Nat.id.
      exact (proj1 (at_byte b (OMEGA + i) B)).
Qed.

Lemma unhint_rows_fwd : forall b, forall h m i k, length h = m -> hint_vec h ->
  (k + length (flat_map positions h) <= OMEGA)%nat ->
  map Z.of_nat (flat_map positions h) = seg b k (length (flat_map positions h)) ->
  map Z.of_nat (totals k h) = map (fun t => at_ b (OMEGA + t)) (seq i m) ->
  unhint_rows b k (seq i m) = Some (h, (k + length (flat_map positions h))%nat).
Proof.
  intros b. induction h as [|r h IH]; intros m i k Hm V Hk P T; subst m.
  - cbn. rewrite Nat.add_0_r. reflexivity.
  - inversion V as [|? ? [Lr Br] V']; subst. cbn [length flat_map totals seq map] in *.
    rewrite app_length in *. rewrite map_app, seg_app in P.
    apply cons_inj in T. destruct T as [T1 T2].
    assert (P1 : map Z.of_nat (positions r) = seg b k (length (positions r)) /\
                 map Z.of_nat (flat_map positions h) = seg b (k + length (positions r)) (length (flat_map positions h))).
    { clear - P. assert (A : length (map Z.of_nat (positions r)) = length (seg b k (length (positions r))))
        by (rewrite map_length, seg_length; reflexivity).
      revert P A. generalize (map Z.of_nat (positions r)), (seg b k (length (positions r))).
      induction l as [|x l IH]; intros [|y l0] P A; try discriminate A; [auto|].
      cbn in *. injection P as -> P. destruct (IH l0 P ltac:(lia)) as [-> ?]. auto. }
    destruct P1 as [P1 P2].
    cbn [unhint_rows]. rewrite <- T1, Nat2Z.id.
    destruct (Nat.ltb_spec (k + length (positions r)) k); [lia|].
    destruct (Nat.ltb_spec OMEGA (k + length (positions r))); [lia|]. cbn [orb].
    rewrite unhint_inner_ok. replace (k + length (positions r) - k)%nat with (length (positions r)) by lia.
    rewrite <- P1, incr_positions.
    rewrite marks_positions by auto.
    rewrite (IH (length h) (S i) (k + length (positions r))%nat) by (auto; lia).
    rewrite Nat.add_assoc. reflexivity.
Qed.

(** ** The two directions *)
Lemma totals_length : forall h k, length (totals k h) = length h.
Proof. induction h; intro k; cbn; auto. Qed.
Lemma hint_bytes_length : forall h, length h = 4%nat -> (length (flat_map positions h) <= OMEGA)%nat ->
  length (hint_bytes h) = 84%nat.
Proof.
  intros h L H. unfold hint_bytes. rewrite !app_length, !map_length, repeat_length, totals_length.
  unfold OMEGA in *. lia.
Qed.
Lemma totals_le : forall h k t, In t (totals k h) -> (t <= k + length (flat_map positions h))%nat.
Proof.
  induction h as [|r h IH]; intros k t H; [destruct H|]. cbn [totals flat_map] in *. rewrite app_length.
  destruct H as [<-|H]; [lia|]. apply IH in H. lia.
Qed.
Lemma hint_bytes_bytes : forall h, (length (flat_map positions h) <= OMEGA)%nat -> is_bytes (hint_bytes h).
Proof.
  intros h H. unfold hint_bytes, is_bytes. apply Forall_app. split; [|apply Forall_app; split].
  - apply Forall_map, Forall_forall. intros j Hj. apply in_flat_map in Hj. destruct Hj as (r & _ & Hj).
    apply in_positions in Hj. unfold is_byte. lia.
  - apply Forall_forall. intros x Hx. apply repeat_spec in Hx. subst. unfold is_byte. lia.
  - apply Forall_map, Forall_forall. intros t Ht. apply totals_le in Ht. unfold is_byte, OMEGA in *. lia.
Qed.
Lemma seg_mid : forall (a c d : bytes), seg (a ++ c ++ d) (length a) (length c) = c.
Proof.
  intros a c d. apply (nth_ext _ _ 0 0); [apply seg_length|].
  rewrite seg_length. intros j Hj.
  unfold seg. rewrite (nth_indep _ 0 (at_ (a ++ c ++ d) 0)) by (rewrite map_length, seq_length; exact Hj).
  rewrite map_nth, seq_nth by exact Hj. unfold at_. rewrite app_nth2 by lia.
  replace (length a + j - length a)%nat with j by lia. apply app_nth1. exact Hj.
Qed.
Lemma map_seq_shift : forall b o i m, map (fun t => at_ b (o + t)) (seq i m) = seg b (o + i) m.
Proof.
  intros b o i m. unfold seg. revert i. induction m as [|m IH]; intro i; [reflexivity|].
  cbn [seq map]. f_equal. rewrite IH. do 2 f_equal. lia.
Qed.

Theorem unpack_pack_hint : forall h, length h = 4%nat -> hint_vec h ->
  (length (flat_map positions h) <= OMEGA)%nat -> unpack_hint (hint_bytes h) = Some h.
Proof.
  intros h L V H. unfold unpack_hint.
  set (ps := flat_map positions h) in *.
  assert (E : unhint_rows (hint_bytes h) 0 (seq 0 4) = Some (h, (0 + length ps)%nat)).
  { apply unhint_rows_fwd; auto.
    - fold ps. unfold hint_bytes. fold ps.
      pose proof (seg_mid [] (map Z.of_nat ps) (repeat 0 (OMEGA - length ps) ++ map Z.of_nat (totals 0 h))) as S.
      cbn [app length] in S. rewrite map_length in S. symmetry. exact S.
    - rewrite map_seq_shift. unfold hint_bytes. fold ps.
      pose proof (seg_mid (map Z.of_nat ps ++ repeat 0 (OMEGA - length ps)) (map Z.of_nat (totals 0 h)) []) as S.
      rewrite app_nil_r, <- app_assoc in S. rewrite app_length, !map_length, repeat_length, totals_length, L in S.
      replace (OMEGA + 0)%nat with (length ps + (OMEGA - length ps))%nat by lia. symmetry. exact S. }
  rewrite E. cbn [Nat.add].
  assert (F : forallb (fun j => at_ (hint_bytes h) j =? 0) (seq (length ps) (OMEGA - length ps)) = true).
  { apply forallb_forall. intros j Hj. apply in_seq in Hj. apply Z.eqb_eq.
    unfold hint_bytes. fold ps. unfold at_. rewrite app_nth2 by (rewrite map_length; lia).
    rewrite app_nth1 by (rewrite map_length, repeat_length; lia). apply nth_repeat. }
  rewrite F. reflexivity.
Qed.

Lemma seg_all : forall b n, length b = n -> seg b 0 n = b.
Proof.
  intros b n <-. pose proof (seg_mid [] b []) as S. cbn [app length] in S. rewrite app_nil_r in S. exact S.
Qed.
Theorem pack_unpack_hint : forall b h, length b = 84%nat -> is_bytes b -> unpack_hint b = Some h ->
  length h = 4%nat /\ hint_vec h /\ (length (flat_map positions h) <= OMEGA)%nat /\ hint_bytes h = b.
Proof.
  intros b h L B H. unfold unpack_hint in H.
  destruct (unhint_rows b 0 (seq 0 4)) as [[rows k]|] eqn:R; [|discriminate H].
  destruct (forallb _ _) eqn:F; [|discriminate H]. injection H as ->.
  destruct (unhint_rows_inv b B 4 0 0 h k) as (Lh & V & K & P & T); auto; [lia|].
  rewrite Nat.sub_0_r in P.
  assert (LP : length (flat_map positions h) = k) by (rewrite <- (map_length Z.of_nat), P; apply seg_length).
  split; [exact Lh|]. split; [exact V|]. split; [lia|].
  unfold hint_bytes. rewrite LP, P, T, map_seq_shift.
  assert (Z0 : repeat 0 (OMEGA - k) = seg b k (OMEGA - k)).
  { rewrite forallb_forall in F. unfold seg.
    rewrite <- (seq_length (OMEGA - k) k) at 1. clear - F.
    revert F. generalize (seq k (OMEGA - k)). induction l as [|j l IH]; intro F; [reflexivity|].
    cbn [length repeat map]. f_equal; [|apply IH; intros x Hx; apply F; right; exact Hx].
    symmetry. apply Z.eqb_eq, F. left. reflexivity. }
  rewrite Z0. change (OMEGA + 0)%nat with OMEGA.
  rewrite <- (seg_all b 84 L) at 4. replace 84%nat with (k + ((OMEGA - k) + 4))%nat by (unfold OMEGA in *; lia).
  rewrite !seg_app. do 3 f_equal. lia.
Qed.

(** ** Signatures *)
Theorem unpack_pack_sig : forall c z h, length c = 32%nat -> vec4 z_range z -> length h = 4%nat -> hint_vec h ->
  (length (flat_map positions h) <= OMEGA)%nat ->
  exists sig, pack_sig c z h = CRet sig /\ length sig = 2420%nat /\ unpack_sig sig = Some (c, z, h).
Proof.
  intros c z h Lc Vz Lh Vh H. unfold pack_sig. rewrite pack_hint_ok by auto. cbn [cbind].
  eexists; split; [reflexivity|]. rewrite (firstn_all2 c) by lia.
  assert (Lz : length (flat_map polyz_pack z) = 2304%nat)
    by (apply (vec_pack_length z_range polyz_pack 576); auto using polyz_pack_length).
  split; [rewrite !app_length, hint_bytes_length by auto; lia|].
  unfold unpack_sig.
  assert (S : skipn 2336 (c ++ flat_map polyz_pack z ++ hint_bytes h) = hint_bytes h).
  { rewrite app_assoc, skipn_app. rewrite skipn_all2 by (rewrite app_length; lia).
    rewrite app_length, Lc, Lz. reflexivity. }
  rewrite S, unpack_pack_hint by auto. do 3 f_equal.
  - rewrite slice_app1 by lia. apply slice_all. exact Lc.
  - apply (vec_unpack z_range); auto using polyz_pack_length, polyz_un_pack.
Qed.

(** Every byte string that decodes is the encoding of what it decodes to. *)
Theorem pack_unpack_sig : forall sig c z h, length sig = 2420%nat -> is_bytes sig ->
  unpack_sig sig = Some (c, z, h) ->
  length c = 32%nat /\ vec4 z_range z /\ length h = 4%nat /\ hint_vec h /\
  (length (flat_map positions h) <= OMEGA)%nat /\ pack_sig c z h = CRet sig.
Proof.
  intros sig c z h L B H. unfold unpack_sig in H.
  destruct (unpack_hint (skipn 2336 sig)) as [h'|] eqn:U; [|discriminate H].
  apply Some_triple_inj in H. destruct H as (<- & <- & <-).
  destruct (pack_unpack_hint (skipn 2336 sig) h') as (Lh & Vh & N & E); auto.
  { rewrite skipn_length. lia. } { apply is_bytes_skipn. exact B. }
  split; [apply slice_length; lia|]. split.
  { apply (vec_unpack_vec4 z_range polyz_unpack 576 sig 32); auto using polyz_unpack_range, polyz_unpack_length. lia. }
  repeat (split; [assumption|]).
  unfold pack_sig. rewrite pack_hint_ok by auto. cbn [cbind]. f_equal.
  rewrite (vec_pack polyz_pack polyz_unpack 576 sig 32) by (auto using polyz_pack_un; lia).
  rewrite E. unfold slice. change (skipn 0 sig) with sig. rewrite firstn_firstn. change (Nat.min 32 32) with 32%nat.
  rewrite <- (firstn_skipn 32 sig) at 4. f_equal.
  change 2336%nat with (32 + 4 * 576)%nat. rewrite <- skipn_skipn_add.
  apply firstn_skipn.
Qed.

Theorem unpack_sig_inj : forall s1 s2 x, length s1 = 2420%nat -> length s2 = 2420%nat ->
  is_bytes s1 -> is_bytes s2 -> unpack_sig s1 = Some x -> unpack_sig s2 = Some x -> s1 = s2.
Proof.
  intros s1 s2 [[c z] h] L1 L2 B1 B2 U1 U2.
  destruct (pack_unpack_sig s1 c z h L1 B1 U1) as (_ & _ & _ & _ & _ & E1).
  destruct (pack_unpack_sig s2 c z h L2 B2 U2) as (_ & _ & _ & _ & _ & E2). congruence.
Qed.
