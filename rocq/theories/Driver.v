(** * Driver: two sessions of one protocol run against each other with honest delivery.

    This is the loop of the tests and benchmarks (latke/src/latke.rs 225-246,
    latke/benches/all.rs): the initiator and the responder take turns; the party whose turn
    it is stops the loop if it is done, otherwise it runs on the last message of the other
    party ([] if there was none) and its answer becomes the next message. *)
From Coq Require Import ZArith List Lia Bool.
From Verif Require Import Base Crypto.
Import ListNotations.

(** Anything with a step function: a PAKE, an IBKE, an EUE or a LATKE session.  The second
    argument of [m_run] is the randomness of that call: the caller's rng and the operating
    system's. *)
Record machine := {
  m_st : Type;
  m_err : Type;
  m_run : m_st -> rng * rng -> bytes -> outcome (m_st * res (option bytes) m_err);
  m_done : m_st -> bool
}.

Inductive status := Completed | OutOfFuel | Errored | Panicked.
Record result (M : machine) := Res {
  r_status : status;
  r_outs : list (option bytes);   (* what each call to run returned, in order *)
  r_init : m_st M;                (* the initiator's state at the end *)
  r_resp : m_st M                 (* the responder's state at the end *)
}.
Arguments Res {M}. Arguments r_status {M}. Arguments r_outs {M}. Arguments r_init {M}. Arguments r_resp {M}.

Definition shift (tape : nat -> rng * rng) : nat -> rng * rng := fun k => tape (S k).
Definition opt_bytes (o : option bytes) : bytes := match o with Some m => m | None => [] end.
Definition flip (t : role) : role := match t with Initiator => Responder | Responder => Initiator end.
Definition sel {A} (t : role) (a b : A) : A := match t with Initiator => a | Responder => b end.

Fixpoint drive (M : machine) (fuel : nat) (turn : role) (tape : nat -> rng * rng)
  (sI sR : m_st M) (msg : bytes) : result M :=
  match fuel with
  | O => Res OutOfFuel [] sI sR
  | S f =>
    if m_done M (sel turn sI sR) then Res Completed [] sI sR
    else match m_run M (sel turn sI sR) (tape O) msg with
    | Panic => Res Panicked [] sI sR
    | Ret (s', Err e) => Res Errored [] (sel turn s' sI) (sel turn sR s')
    | Ret (s', Ok o) =>
      let r := drive M f (flip turn) (shift tape) (sel turn s' sI) (sel turn sR s') (opt_bytes o) in
      Res (r_status r) (o :: r_outs r) (r_init r) (r_resp r)
    end
  end.

(** A whole run: the initiator starts on the empty message. *)
Definition honest_run (M : machine) (fuel : nat) (tape : nat -> rng * rng) (sI sR : m_st M) : result M :=
  drive M fuel Initiator tape sI sR [].

(** The sessions of the two traits as machines. *)
Definition pake_machine (P : pake) : machine := {|
  m_st := PST P; m_err := PERR P;
  m_run := fun s rr m => pk_run P s (snd rr) m;
  m_done := pk_done P |}.
Definition ibke_machine (I : ibke) : machine := {|
  m_st := IST I; m_err := IERR I;
  m_run := fun s rr m => let! (s', o, _) := ik_run I s (fst rr) (snd rr) m in Ret (s', o);
  m_done := ik_done I |}.

(** What a peer can do to one session: a sequence of calls to [run] with arbitrary messages
    and randomness, after a failed call as well as after a successful one. *)
Inductive reach (M : machine) (s0 : m_st M) : m_st M -> Prop :=
| reach_init : reach M s0 s0
| reach_run : forall s rr msg s' o,
    reach M s0 s -> m_run M s rr msg = Ret (s', o) -> reach M s0 s'.

(** The same, keeping the log of calls: the message given to each call and what it returned. *)
Definition log (M : machine) := list (bytes * res (option bytes) (m_err M)).
Inductive hist (M : machine) (s0 : m_st M) : log M -> m_st M -> Prop :=
| hist_init : hist M s0 [] s0
| hist_run : forall l s rr msg s' o,
    hist M s0 l s -> m_run M s rr msg = Ret (s', o) -> hist M s0 (l ++ [(msg, o)]) s'.

(** The step discipline of a session that started at s0 in role [rl]: its step counter keeps
    the parity of the role (the initiator executes even steps, the responder odd ones), a
    successful call advances it by two and an erroneous one leaves it where it is, and a call
    on a completed session panics. *)
Definition disciplined (M : machine) (step : m_st M -> nat) (rl : role) (s0 : m_st M) : Prop :=
  forall s, reach M s0 s ->
    Nat.even (step s) = Nat.even (first_step rl) /\
    (forall rr m s' o, m_run M s rr m = Ret (s', Ok o) -> step s' = step s + 2)%nat /\
    (forall rr m s' e, m_run M s rr m = Ret (s', Err e) -> step s' = step s) /\
    (m_done M s = true -> forall rr m, m_run M s rr m = Panic).

(* ------------------------------------------------------------------ *)
(** ** Facts *)
Lemma hist_reach : forall M s0 l s, hist M s0 l s -> reach M s0 s.
Proof. intros M s0 l s H. induction H; [constructor|eapply reach_run; eassumption]. Qed.
Lemma reach_hist : forall M s0 s, reach M s0 s -> exists l, hist M s0 l s.
Proof.
  intros M s0 s H. induction H as [|s rr msg s' o H [l IH] E]; [exists []; constructor|].
  eexists. eapply hist_run; eassumption.
Qed.
(** To prove the discipline: an invariant of single calls. *)
Lemma disciplined_by : forall M step rl s0 (Inv : m_st M -> Prop),
  step s0 = first_step rl -> Inv s0 ->
  (forall s rr m s' o, Inv s -> m_run M s rr m = Ret (s', Ok o) -> Inv s' /\ step s' = step s + 2)%nat ->
  (forall s rr m s' e, Inv s -> m_run M s rr m = Ret (s', Err e) -> Inv s' /\ step s' = step s) ->
  (forall s rr m, Inv s -> m_done M s = true -> m_run M s rr m = Panic) ->
  disciplined M step rl s0.
Proof.
  intros M step rl s0 Inv S0 I0 HO HE HD s R.
  assert (X : Inv s /\ Nat.even (step s) = Nat.even (first_step rl)).
  { induction R as [|s rr m s' [o|e] R [IH1 IH2] E].
    - rewrite S0. auto.
    - destruct (HO _ _ _ _ _ IH1 E) as [A ->]. split; [exact A|]. rewrite Nat.even_add, IH2. destruct (Nat.even (first_step rl)); reflexivity.
    - destruct (HE _ _ _ _ _ IH1 E) as [A ->]. split; assumption. }
  destruct X as [X1 X2]. repeat split; auto.
  - intros rr m s' o E. apply (HO _ _ _ _ _ X1 E).
  - intros rr m s' e E. apply (HE _ _ _ _ _ X1 E).
Qed.
Lemma drive_more : forall M f f' t tape sI sR msg,
  r_status (drive M f t tape sI sR msg) <> OutOfFuel -> (f <= f')%nat ->
  drive M f' t tape sI sR msg = drive M f t tape sI sR msg.
Proof.
  intros M f. induction f as [|f IH]; intros f' t tape sI sR msg H L; [cbn in H; congruence|].
  destruct f' as [|f']; [lia|]. cbn [drive] in *.
  destruct (m_done M (sel t sI sR)); [reflexivity|].
  destruct (m_run M (sel t sI sR) (tape O) msg) as [[s' [o|e]]|]; try reflexivity.
  cbn [r_status] in H. rewrite IH; [reflexivity|exact H|lia].
Qed.
Lemma drive_ext : forall M f t tape tape' sI sR msg,
  (forall k, (k < f)%nat -> tape k = tape' k) ->
  drive M f t tape sI sR msg = drive M f t tape' sI sR msg.
Proof.
  intros M f. induction f as [|f IH]; intros t tape tape' sI sR msg H; [reflexivity|].
  cbn [drive]. rewrite <- (H O) by lia.
  destruct (m_done M (sel t sI sR)); [reflexivity|].
  destruct (m_run M (sel t sI sR) (tape O) msg) as [[s' [o|e]]|]; try reflexivity.
  rewrite (IH _ (shift tape) (shift tape')); [reflexivity|]. intros k Hk. apply H. lia.
Qed.
Lemma drive_outs_fuel : forall M f t tape sI sR msg,
  (length (r_outs (drive M f t tape sI sR msg)) <= f)%nat.
Proof.
  intros M f. induction f as [|f IH]; intros t tape sI sR msg; [cbn; lia|]. cbn [drive].
  destruct (m_done M (sel t sI sR)); [cbn; lia|].
  destruct (m_run M (sel t sI sR) (tape O) msg) as [[s' [o|e]]|]; cbn [r_outs length]; try lia.
  specialize (IH (flip t) (shift tape) (sel t s' sI) (sel t sR s') (opt_bytes o)). lia.
Qed.
(** An invariant of every session is an invariant of both ends of a run. *)
Lemma drive_reach : forall M f t tape sI sR msg,
  reach M sI (r_init (drive M f t tape sI sR msg)) /\ reach M sR (r_resp (drive M f t tape sI sR msg)).
Proof.
  intros M f. induction f as [|f IH]; intros t tape sI sR msg; [cbn; split; constructor|]. cbn [drive].
  destruct (m_done M (sel t sI sR)); [cbn; split; constructor|].
  destruct (m_run M (sel t sI sR) (tape O) msg) as [[s' [o|e]]|] eqn:E; cbn [r_init r_resp].
  - specialize (IH (flip t) (shift tape) (sel t s' sI) (sel t sR s') (opt_bytes o)).
    assert (T : forall a b c, reach M b c -> reach M a b -> reach M a c).
    { intros a b c H. induction H; intro G; [exact G|]. eapply reach_run; [apply IHreach; exact G|exact H0]. }
    destruct IH as [A B]. destruct t; cbn [sel] in *; split.
    + eapply T; [exact A|]. eapply reach_run; [constructor|exact E].
    + exact B.
    + exact A.
    + eapply T; [exact B|]. eapply reach_run; [constructor|exact E].
  - destruct t; cbn [sel] in *; split; try constructor; eapply reach_run; try constructor; exact E.
  - split; constructor.
Qed.
(** Executing a run step by step. *)
Lemma drive_I : forall (M : machine) f tape sI sR msg s' o st outs a b,
  m_done M sI = false -> m_run M sI (tape O) msg = Ret (s', Ok o) ->
  drive M f Responder (shift tape) s' sR (opt_bytes o) = Res st outs a b ->
  drive M (S f) Initiator tape sI sR msg = Res st (o :: outs) a b.
Proof. intros M f tape sI sR msg s' o st outs a b D R H. cbn [drive sel flip]. rewrite D, R, H. reflexivity. Qed.
Lemma drive_R : forall (M : machine) f tape sI sR msg s' o st outs a b,
  m_done M sR = false -> m_run M sR (tape O) msg = Ret (s', Ok o) ->
  drive M f Initiator (shift tape) sI s' (opt_bytes o) = Res st outs a b ->
  drive M (S f) Responder tape sI sR msg = Res st (o :: outs) a b.
Proof. intros M f tape sI sR msg s' o st outs a b D R H. cbn [drive sel flip]. rewrite D, R, H. reflexivity. Qed.
Lemma drive_done_I : forall (M : machine) f tape sI sR msg, m_done M sI = true ->
  drive M (S f) Initiator tape sI sR msg = Res Completed [] sI sR.
Proof. intros M f tape sI sR msg D. cbn [drive sel]. rewrite D. reflexivity. Qed.
Lemma drive_done_R : forall (M : machine) f tape sI sR msg, m_done M sR = true ->
  drive M (S f) Responder tape sI sR msg = Res Completed [] sI sR.
Proof. intros M f tape sI sR msg D. cbn [drive sel]. rewrite D. reflexivity. Qed.
