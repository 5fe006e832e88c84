(** * A64Rel: executions of the AArch64 machine on related lanes stay related. *)
From Coq Require Import ZArith List Lia Bool.
From Verif Require Import Base Bits DilArith AvxMachine AvxSymOk A64Machine.
Import ListNotations.
Open Scope Z_scope.

Section Related.
Context {V W : Type} (A : lane64 V) (B : lane64 W) (R : V -> W -> Prop).
Notation RV := (Forall2 R).
Notation RM := (Forall2 (Forall2 R)).
Definition R2' (p : V * V) (q : W * W) : Prop := R (fst p) (fst q) /\ R (snd p) (snd q).
Record lanes_related : Prop := {
  rc : forall z, R (n_const A z) (n_const B z);
  radd : forall x x' y y', R x x' -> R y y' -> R (n_add A x y) (n_add B x' y');
  rsub : forall x x' y y', R x x' -> R y y' -> R (n_sub A x y) (n_sub B x' y');
  rmul : forall x x' y y', R x x' -> R y y' -> R (n_mul A x y) (n_mul B x' y');
  rrd : forall x x' y y', R x x' -> R y y' -> R (n_rdmulh A x y) (n_rdmulh B x' y');
  rmls : forall d d' x x' y y', R d d' -> R x x' -> R y y' -> R (n_mls A d x y) (n_mls B d' x' y');
  rmla : forall d d' x x' y y', R d d' -> R x x' -> R y y' -> R (n_mla A d x y) (n_mla B d' x' y');
  rsr : forall n x x', R x x' -> R (n_srshr A n x) (n_srshr B n x');
  rss : forall n x x', R x x' -> R (n_sshr A n x) (n_sshr B n x');
  rsl : forall n x x', R x x' -> R (n_shl A n x) (n_shl B n x');
  rcm : forall x x' y y', R x x' -> R y y' -> R (n_cmge A x y) (n_cmge B x' y');
  rml : forall x x' y y', R x x' -> R y y' -> R2' (n_smull A x y) (n_smull B x' y');
  rmal : forall d d' x x' y y', R2' d d' -> R x x' -> R y y' -> R2' (n_smlal A d x y) (n_smlal B d' x' y');
  rmsl : forall d d' x x' y y', R2' d d' -> R x x' -> R y y' -> R2' (n_smlsl A d x y) (n_smlsl B d' x' y');
  rlsr : forall x x', R x x' -> R (n_lsr1 A x) (n_lsr1 B x');
  rneg : forall x x', R x x' -> R (n_neg A x) (n_neg B x') }.
Hypothesis L : lanes_related.

Inductive RX : xval V -> xval W -> Prop :=
| RXP : forall a o, RX (XP a o) (XP a o)
| RXW : forall v w, R v w -> RX (XW v) (XW w)
| RXD : forall v w v' w', R v w -> R v' w' -> RX (XD v v') (XD w w').
Record RS64 (s : mstate64 V) (t : mstate64 W) : Prop := {
  rs_v : RM (vr s) (vr t); rs_x : Forall2 RX (xr s) (xr t); rs_a : RM (ar s) (ar t); rs_b : bad s = bad t }.

Lemma F2_nthg : forall {X Y} (P : X -> Y -> Prop) l m n d e, Forall2 P l m -> P d e -> P (nth n l d) (nth n m e).
Proof. intros X Y P l m n d e H D. revert n. induction H; intros [|n]; cbn [nth]; auto. Qed.
Lemma F2_vsetg : forall {X Y} (P : X -> Y -> Prop) l m n d e, Forall2 P l m -> P d e -> Forall2 P (vset l n d) (vset m n e).
Proof. intros X Y P l m n d e H D. revert n. induction H; intros [|n]; cbn [vset]; auto. Qed.
Lemma F2_firstn : forall {X Y} (P : X -> Y -> Prop) n l m, Forall2 P l m -> Forall2 P (firstn n l) (firstn n m).
Proof. intros X Y P n l m H. revert n. induction H; intros [|n]; cbn; auto. Qed.
Lemma F2_skipn : forall {X Y} (P : X -> Y -> Prop) n l m, Forall2 P l m -> Forall2 P (skipn n l) (skipn n m).
Proof. intros X Y P n l m H. revert n. induction H; intros [|n]; cbn; auto. Qed.
Lemma F2_len : forall {X Y} (P : X -> Y -> Prop) l m, Forall2 P l m -> length l = length m.
Proof. intros X Y P l m H. induction H; cbn; congruence. Qed.
Lemma F2_concat : forall s t, RM s t -> RV (concat s) (concat t).
Proof. induction 1; cbn; [constructor|]. apply Forall2_app; auto. Qed.

Lemma elem_R : forall a b i, RV a b -> R (elem A a i) (elem B b i).
Proof. intros. unfold elem. apply (F2_nthg R); [assumption|apply (rc L)]. Qed.
Lemma dup_R : forall x y, R x y -> RV (dup4 x) (dup4 y).
Proof. intros. repeat constructor; assumption. Qed.
Lemma map2v_R : forall f g, (forall x x' y y', R x x' -> R y y' -> R (f x y) (g x' y')) ->
  forall a a', RV a a' -> forall b b', RV b b' -> RV (map2v f a b) (map2v g a' b').
Proof.
  intros f g H a a' Ha. induction Ha; intros b b' Hb; cbn [map2v]; [constructor|]. destruct Hb; constructor; auto.
Qed.
Lemma map3v_R : forall f g, (forall d d' x x' y y', R d d' -> R x x' -> R y y' -> R (f d x y) (g d' x' y')) ->
  forall d d', RV d d' -> forall a a', RV a a' -> forall b b', RV b b' -> RV (map3v f d a b) (map3v g d' a' b').
Proof.
  intros f g H d d' Hd. induction Hd; intros a a' Ha b b' Hb; cbn [map3v]; [constructor|].
  destruct Ha; [constructor|]. destruct Hb; constructor; auto.
Qed.
Lemma map_R : forall f g, (forall x x', R x x' -> R (f x) (g x')) -> forall a a', RV a a' -> RV (map f a) (map g a').
Proof. intros f g H a a' Ha. induction Ha; cbn; constructor; auto. Qed.
Lemma trn1_R : forall a a', RV a a' -> forall b b', RV b b' -> RV (trn1 a b) (trn1 a' b').
Proof.
  intros a a' Ha b b' Hb. unfold trn1. do 4 (destruct Ha as [|? ? ? ? ? Ha]; [constructor|]).
  do 4 (destruct Hb as [|? ? ? ? ? Hb]; [constructor|]). auto 10.
Qed.
Lemma trn2_R : forall a a', RV a a' -> forall b b', RV b b' -> RV (trn2 a b) (trn2 a' b').
Proof.
  intros a a' Ha b b' Hb. unfold trn2. do 4 (destruct Ha as [|? ? ? ? ? Ha]; [constructor|]).
  do 4 (destruct Hb as [|? ? ? ? ? Hb]; [constructor|]). auto 10.
Qed.
Lemma evens_R : forall a a', RV a a' -> RV (evens a) (evens a').
Proof. apply (F2_two R); cbn; auto. Qed.
Lemma odds_R : forall a a', RV a a' -> RV (odds a) (odds a').
Proof. apply (F2_two R); cbn; auto. Qed.
Lemma smull_R : forall a a', RV a a' -> forall b b', RV b b' -> RV (smull_ A a b) (smull_ B a' b').
Proof.
  intros a a' Ha. induction Ha as [|x x' a a' Hx Ha IH]; intros b b' Hb; cbn [smull_]; [constructor|].
  destruct Hb as [|y y' b b' Hy Hb]; [constructor|]. destruct (rml L x x' y y' Hx Hy) as [E1 E2].
  destruct (n_smull A x y), (n_smull B x' y'). auto.
Qed.
Lemma acc_R : forall f g, (forall d d' x x' y y', R2' d d' -> R x x' -> R y y' -> R2' (f d x y) (g d' x' y')) ->
  forall d d', RV d d' -> forall a a', RV a a' -> forall b b', RV b b' -> RV (acc_ f d a b) (acc_ g d' a' b').
Proof.
  intros f g H d d' Hd. pattern d, d'. revert d d' Hd. apply (F2_two R); cbn [acc_]; auto.
  - intros lo hi d lo' hi' d' Hl Hh Hd IH a a' Ha b b' Hb.
    destruct Ha as [|x x' a a' Hx Ha]; [constructor|]. destruct Hb as [|y y' b b' Hy Hb]; [constructor|].
    destruct (H (lo, hi) (lo', hi') x x' y y') as [E1 E2]; [split; assumption|assumption|assumption|].
    destruct (f (lo, hi) x y), (g (lo', hi') x' y'). auto.
Qed.
Lemma every_R : forall n w w', RV w w' -> forall fuel i, RV (every A n i w fuel) (every B n i w' fuel).
Proof. intros n w w' H fuel. induction fuel as [|f IH]; intro i; cbn [every]; constructor; [apply elem_R; exact H|apply IH]. Qed.

Lemma vget_R : forall s t r, RS64 s t -> RV (vget s r) (vget t r).
Proof. intros s t r H. unfold vget. apply (F2_nthg (Forall2 R)); [apply (rs_v _ _ H)|constructor]. Qed.
Lemma setv_R : forall s t d x y, RS64 s t -> RV x y -> RS64 (setv s d x) (setv t d y).
Proof. intros s t d x y [H1 H2 H3 H4] H. split; cbn; auto. apply F2_vsetg; auto. Qed.
Lemma xget_R : forall s t r, RS64 s t -> RX (xget s r) (xget t r).
Proof. intros s t r H. unfold xget. apply (F2_nthg RX); [apply (rs_x _ _ H)|constructor]. Qed.
Lemma setx_R : forall s t d x y, RS64 s t -> RX x y -> RS64 (setx s d x) (setx t d y).
Proof. intros s t d x y [H1 H2 H3 H4] H. split; cbn; auto. apply F2_vsetg; auto. Qed.
Lemma fail_R : forall s t, RS64 s t -> RS64 (fail s) (fail t).
Proof. intros s t [H1 H2 H3 H4]. split; cbn; auto. Qed.
Lemma word_R : forall s t r, RS64 s t -> R (word A s r) (word B t r).
Proof. intros s t r H. unfold word. destruct (xget_R s t r H); auto; apply (rc L). Qed.
Lemma arr_R : forall s t a, RS64 s t -> RV (nth a (ar s) []) (nth a (ar t) []).
Proof. intros s t a H. apply (F2_nthg (Forall2 R)); [apply (rs_a _ _ H)|constructor]. Qed.
Lemma inside_R : forall s t a o n, RS64 s t -> inside s a o n = inside t a o n.
Proof. intros s t a o n H. unfold inside. rewrite (F2_len _ _ _ (arr_R s t a H)). reflexivity. Qed.
Lemma getm_R : forall s t a o n, RS64 s t -> RV (getm s a o n) (getm t a o n).
Proof. intros. apply F2_firstn, F2_skipn, arr_R. assumption. Qed.
Lemma putm_R : forall s t a o x y, RS64 s t -> RV x y -> RS64 (putm s a o x) (putm t a o y).
Proof.
  intros s t a o x y H K. pose proof (arr_R s t a H) as Ha. destruct H as [H1 H2 H3 H4]. split; cbn; auto.
  apply F2_vsetg; auto. rewrite (F2_len _ _ _ K). apply Forall2_app; [apply F2_firstn; exact Ha|].
  apply Forall2_app; [exact K|apply F2_skipn; exact Ha].
Qed.
Lemma setvs_R : forall vs s t n i w w', RS64 s t -> RV w w' -> RS64 (setvs A s n i vs w) (setvs B t n i vs w').
Proof.
  induction vs as [|r vs IH]; intros s t n i w w' H K; cbn [setvs]; [exact H|]. apply IH; [|exact K].
  apply setv_R; [exact H|]. apply every_R. exact K.
Qed.
Lemma setvs1_R : forall vs s t w w', RS64 s t -> RV w w' -> RS64 (setvs1 s vs w) (setvs1 t vs w').
Proof.
  induction vs as [|r vs IH]; intros s t w w' H K; cbn [setvs1]; [exact H|]. apply IH; [|apply F2_skipn; exact K].
  apply setv_R; [exact H|]. apply F2_firstn. exact K.
Qed.
Lemma interleave_R : forall s t vs, RS64 s t -> RV (interleave A s vs) (interleave B t vs).
Proof.
  intros s t vs H. unfold interleave. apply F2_concat. generalize (seq 0 4). induction l as [|i l IH]; cbn; constructor; auto.
  clear IH. induction vs as [|r vs IH]; cbn; constructor; auto. apply elem_R, vget_R. exact H.
Qed.
Lemma load_R : forall s t x o n k k', RS64 s t -> (forall w w', RV w w' -> RS64 (k w s) (k' w' t)) -> RS64 (load s x o n k) (load t x o n k').
Proof.
  intros s t x o n k k' H K. unfold load. destruct (xget_R s t x H) as [a p| |]; try (apply fail_R; exact H).
  rewrite (inside_R s t a p n H). destruct (inside t a p n); [|apply fail_R; exact H].
  apply setx_R; [|constructor]. apply K. apply getm_R. exact H.
Qed.
Lemma store_R : forall s t x o w w', RS64 s t -> RV w w' -> RS64 (store s x o w) (store t x o w').
Proof.
  intros s t x o w w' H K. unfold store. destruct (xget_R s t x H) as [a p| |]; try (apply fail_R; exact H).
  rewrite (inside_R s t a p _ H), (F2_len _ _ _ K). destruct (inside t a p (length w')); [|apply fail_R; exact H].
  apply setx_R; [|constructor]. apply putm_R; assumption.
Qed.
Lemma exec64_R : forall i s t, RS64 s t -> RS64 (exec64 A s i) (exec64 B t i).
Proof.
  intros i s t H.
  assert (G : forall r, RV (vget s r) (vget t r)) by (intro r; apply vget_R; exact H).
  destruct i; cbn [exec64];
    try (apply setv_R; [exact H|]);
    try (apply map2v_R; [first [apply (radd L)|apply (rsub L)|apply (rmul L)|apply (rrd L)|apply (rcm L)]|auto|try (apply dup_R, elem_R); auto]; fail);
    try (apply map3v_R; [first [apply (rmls L)|apply (rmla L)]|auto|auto|try (apply dup_R, elem_R); auto]; fail).
  - destruct (xget_R s t b H) as [a p| |]; try (apply fail_R; exact H). rewrite (inside_R s t _ _ _ H).
    destruct (inside t a (p + o) 1); [|apply fail_R; exact H]. apply setx_R; [exact H|]. constructor. apply elem_R, getm_R. exact H.
  - destruct (xget_R s t b H) as [a p| |]; try (apply fail_R; exact H). rewrite (inside_R s t _ _ _ H).
    destruct (inside t a (p + o) 2); [|apply fail_R; exact H]. apply setx_R; [exact H|]. constructor; apply elem_R, getm_R; exact H.
  - apply setx_R; [exact H|]. apply xget_R. exact H.
  - destruct (xget_R s t s0 H) as [a p| |]; try (apply fail_R; exact H). apply setx_R; [exact H|constructor].
  - apply setx_R; [exact H|]. constructor. apply (rc L).
  - apply setx_R; [exact H|]. constructor. apply (rlsr L). apply word_R. exact H.
  - apply setx_R; [exact H|]. constructor. apply (rneg L). apply word_R. exact H.
  - apply load_R; [exact H|]. intros. apply setvs1_R; assumption.
  - apply load_R; [exact H|]. intros. apply setvs_R; assumption.
  - apply load_R; [exact H|]. intros. apply setvs_R; assumption.
  - apply store_R; [exact H|]. apply F2_concat. clear - G. induction v; cbn; constructor; auto.
  - apply store_R; [exact H|]. apply interleave_R. exact H.
  - apply F2_vsetg; [auto|]. apply word_R. exact H.
  - destruct (xget_R s t x H) as [a p| |]; try (apply fail_R; exact H). apply setv_R; [exact H|].
    constructor; [assumption|]. constructor; [assumption|]. apply F2_skipn. auto.
  - apply dup_R, word_R. exact H.
  - apply map_R; [|auto]. intros. apply (rsr L). assumption.
  - apply map_R; [|auto]. intros. apply (rss L). assumption.
  - apply map_R; [|auto]. intros. apply (rsl L). assumption.
  - apply trn1_R; auto.
  - apply trn2_R; auto.
  - apply Forall2_app; apply F2_firstn; auto.
  - apply Forall2_app; apply F2_skipn; auto.
  - apply evens_R, Forall2_app; auto.
  - apply odds_R, Forall2_app; auto.
  - apply smull_R; apply F2_firstn; auto.
  - apply smull_R; apply F2_skipn; auto.
  - apply acc_R; [apply (rmal L)|auto|apply F2_firstn; auto|apply F2_firstn; auto].
  - apply acc_R; [apply (rmal L)|auto|apply F2_skipn; auto|apply F2_skipn; auto].
  - apply acc_R; [apply (rmsl L)|auto|apply F2_firstn; auto|apply F2_firstn; auto].
  - apply acc_R; [apply (rmsl L)|auto|apply F2_skipn; auto|apply F2_skipn; auto].
Qed.
Lemma run64_R : forall p s t, RS64 s t -> RS64 (run64 A p s) (run64 B p t).
Proof. induction p as [|i p IH]; intros s t H; [exact H|]. cbn [run64 fold_left]. apply IH. apply exec64_R. exact H. Qed.
(** A call on related arguments: the same pointers, anything in the other registers. *)
Theorem call64_R : forall p vs vs' args j j' a a' r, RM vs vs' -> RV j j' -> RM a a' ->
  leave (run64 A p (enter vs args j a)) = Some r -> exists r', leave (run64 B p (enter vs' args j' a')) = Some r' /\ RM r r'.
Proof.
  intros p vs vs' args j j' a a' r Hv Hj Ha E.
  assert (H : RS64 (enter vs args j a) (enter vs' args j' a')).
  { split; cbn; auto. apply Forall2_app.
    - clear E. induction args as [|p0 args IH]; cbn; constructor; [constructor|exact IH].
    - clear E. induction Hj as [|x y l m Hx Hl IH]; cbn; constructor; [constructor; exact Hx|exact IH]. }
  apply (run64_R p) in H. destruct H as [_ _ H3 H4]. unfold leave in *. rewrite <- H4.
  destruct (bad (run64 A p (enter vs args j a))); [discriminate E|]. injection E as <-. eauto.
Qed.
End Related.

(** What a caller finds in the registers: 32 vectors of 4 lanes, and general registers. *)
Definition vregs_ok (R : list (list Z)) : Prop := length R = 32%nat /\ Forall (fun v => length v = 4%nat) R.
