(** * PropsAccept2: the outcome of every call on an encrypted session, after any log of calls,
    refused ones included (C66). *)
From Coq Require Import ZArith List Lia Bool String.
From Verif Require Import Base Crypto Symmetric Driver PropsSym Eue PropsEue LatkeHist Ibkes IbkeSpec PropsSigDh IbkeToy PropsPanic PropsPanic2 PropsAccept.
Import ListNotations.
Open Scope Z_scope.

(* ------------------------------------------------------------------ *)
(** ** Specification *)
(** How many of the calls so far returned Err. *)
Fixpoint refused {M : machine} (l : log M) : nat :=
  match l with
  | [] => 0
  | (_, Ok _) :: r => refused r
  | (_, Err _) :: r => S (refused r)
  end%nat.
(** The position in the key schedule of the key that opens the next incoming message, and of
    the key that seals the answer to it.  A successful call moves two keys on, a refused one
    only one; the initiator's first call, which opens nothing, moves one less. *)
Definition open_pos {M : machine} (rl : role) (l : log M) : nat :=
  match rl with
  | Initiator => 2 * succeeded l + refused l - 1
  | Responder => 2 * succeeded l + refused l
  end%nat.
Definition seal_pos {M : machine} (rl : role) (l : log M) : nat :=
  match rl with
  | Initiator => 2 * succeeded l + refused l
  | Responder => 2 * succeeded l + refused l + 1
  end%nat.
(** The inner log behind an outer one: every message opens to the inner one, every answer seals
    the inner one, and inner errors are passed on. *)
Inductive opened (P : prims) (key ssid : bytes) (rl : role) (I : ibke) : log (eue_machine P I) -> log (ibke_machine I) -> Prop :=
| opened_nil : opened P key ssid rl I [] []
| opened_ok : forall x y c m o a, opened P key ssid rl I x y ->
    flight P key ssid (open_pos rl x) m c -> wire P key ssid (seal_pos rl x) a o ->
    opened P key ssid rl I (x ++ [(c, Ok o)]) (y ++ [(m, Ok a)])
| opened_err : forall x y c m e, opened P key ssid rl I x y ->
    flight P key ssid (open_pos rl x) m c ->
    opened P key ssid rl I (x ++ [(c, Err e)]) (y ++ [(m, Err e)]).

(* ------------------------------------------------------------------ *)
(** ** Proofs *)
Lemma refused_app : forall M (a b : log M), refused (a ++ b) = (refused a + refused b)%nat.
Proof.
  intros M a b. induction a as [|[m [o|e]] a IH]; cbn [app refused]; [reflexivity|exact IH|].
  rewrite IH. reflexivity.
Qed.
Definition fresh_first {M : machine} (rl : role) (l : log M) : bool :=
  match rl, l with Initiator, [] => true | _, _ => false end.
Lemma snoc_not_nil : forall A (l : list A) x, exists y z, l ++ [x] = y :: z.
Proof. intros A [|a l] x; [exists x, []|exists a, (l ++ [x])]; reflexivity. Qed.
Lemma fresh_first_snoc : forall M rl (l : log M) x, fresh_first rl (l ++ [x]) = false.
Proof. intros M rl l x. destruct (snoc_not_nil _ l x) as [y [z ->]]. destruct rl; reflexivity. Qed.
Lemma count_pos : forall M (l : log M), l <> [] -> (1 <= succeeded l + refused l)%nat.
Proof. intros M [|[m [o|e]] l] H; [congruence| |]; cbn [succeeded refused]; lia. Qed.
Lemma seal_after_open : forall M rl (l : log M),
  seal_pos rl l = (if fresh_first rl l then open_pos rl l else S (open_pos rl l)).
Proof.
  intros M rl l. unfold seal_pos, open_pos, fresh_first. destruct rl; [|lia]. destruct l as [|a l]; [reflexivity|].
  pose proof (count_pos M (a :: l) ltac:(discriminate)). lia.
Qed.
Lemma open_after_ok : forall M rl (l : log M) c o, open_pos rl (l ++ [(c, Ok o)]) = S (seal_pos rl l).
Proof.
  intros. unfold seal_pos, open_pos. rewrite succeeded_app, refused_app. cbn [succeeded refused]. destruct rl; lia.
Qed.
Lemma open_after_err : forall M rl (l : log M) c e, open_pos rl (l ++ [(c, Err e)]) = seal_pos rl l.
Proof.
  intros. unfold seal_pos, open_pos. rewrite succeeded_app, refused_app. cbn [succeeded refused]. destruct rl; lia.
Qed.

(** One call of a session at any position. *)
Lemma eue_call : forall P I key ssid M rl (l : log M) s e r os c,
  at_pos P I key ssid (open_pos rl l) (fresh_first rl l) s e ->
  match eue_run P I e r os c with
  | Panic => forall m, flight P key ssid (open_pos rl l) m c -> ik_run I s r os m = Panic
  | Ret (e', Err er, r2) => exists m s', flight P key ssid (open_pos rl l) m c /\ ik_run I s r os m = Ret (s', Err er, r2) /\
      at_pos P I key ssid (seal_pos rl l) false s' e'
  | Ret (e', Ok o, _) => exists m s' a r2, flight P key ssid (open_pos rl l) m c /\ ik_run I s r os m = Ret (s', Ok a, r2) /\
      wire P key ssid (seal_pos rl l) a o /\ at_pos P I key ssid (S (seal_pos rl l)) false s' e'
  end.
Proof.
  intros P I key ssid M rl l s e r os c A.
  assert (E2 : exists e2, eue_pre P I e = Ret e2 /\ at_pos P I key ssid (seal_pos rl l) false s e2).
  { unfold eue_pre. rewrite seal_after_open. destruct (fresh_first rl l); unfold at_pos in A; rewrite A; cbn [e_first negb].
    - eexists. split; reflexivity.
    - destruct (ratchet_at P I key ssid (open_pos rl l) false s _ eq_refl) as [e2 [R2 A2]]. exists e2. split; [exact R2|exact A2]. }
  destruct E2 as [e2 [E2 A2]]. unfold eue_run.
  destruct (eue_incoming P I e c) as [[inc e1]|] eqn:IN; cbn [obind].
  - destruct (incoming_flight _ _ _ _ _ _ _ _ _ _ _ A IN) as [m [-> [-> F]]].
    rewrite E2. cbn [obind]. unfold at_pos in A2. rewrite A2. cbn [e_real unwrap obind e_sess e_msg_key e_chain_key e_first].
    assert (U : forall m', flight P key ssid (open_pos rl l) m' c -> m' = m).
    { intros m' F'. destruct F as [[Q1 Q2]|[Q1 Q2]], F' as [[R1 R2]|[R1 R2]]; try congruence. }
    destruct (ik_run I s r os m) as [[[s' [a|er]] r1]|] eqn:ER; cbn [obind].
    + destruct (eue_post_at P I key ssid (seal_pos rl l) s' (Eue (key_at P key ssid (seal_pos rl l)) (chain_at P key ssid (seal_pos rl l)) s' false true) r1 a eq_refl)
        as [e3 [b [r3 [-> [W A3]]]]]. exists m, s', a, r1. auto.
    + exists m, s'. split; [exact F|]. split; [exact ER|]. reflexivity.
    + intros m' F'. rewrite (U m' F'). exact ER.
  - intros m F. exfalso. unfold eue_incoming in IN. unfold at_pos in A. rewrite A in IN. cbn [e_real e_msg_key] in IN.
    destruct F as [[-> ->]|[NE D]]; [discriminate IN|]. destruct c as [|z c]; [congruence|].
    replace (0 <? List.length (z :: c))%nat with true in IN by (symmetry; apply Nat.ltb_lt; cbn; lia). cbn [andb] in IN.
    rewrite D in IN. discriminate IN.
Qed.
Lemma eue_hist_opened : forall P I r ssid mpk cert usk rl key e0 r' l e,
  eue_new P I r ssid mpk cert usk rl key = Ret (e0, r') -> hist (eue_machine P I) e0 l e ->
  exists y s, hist (ibke_machine I) (fst (ik_new I r ssid mpk cert usk rl)) y s /\ opened P key ssid rl I l y /\
    at_pos P I key ssid (open_pos rl l) (fresh_first rl l) s e.
Proof.
  intros P I r ssid mpk cert usk rl key e0 r' l e N H. induction H as [|l e rr c e' o H IH E].
  - apply eue_new_inv in N. exists [], (fst (ik_new I r ssid mpk cert usk rl)). split; [constructor|]. split; [constructor|].
    unfold eue_at in N. destruct rl; exact N.
  - destruct IH as [y [s [HY [O A]]]]. apply eue_m_run in E. destruct E as [r2 E].
    pose proof (eue_call P I key ssid _ rl l s e (fst rr) (snd rr) c A) as EC. rewrite E in EC.
    destruct o as [o|er].
    + destruct EC as [m [s' [a [r3 [F [R [W A']]]]]]]. exists (y ++ [(m, Ok a)]), s'. split; [|split].
      * apply (hist_run (ibke_machine I) _ y s rr); [exact HY|]. cbn [ibke_machine m_run]. rewrite R. reflexivity.
      * apply opened_ok; assumption.
      * rewrite open_after_ok, fresh_first_snoc. exact A'.
    + destruct EC as [m [s' [F [R A']]]]. exists (y ++ [(m, Err er)]), s'. split; [|split].
      * apply (hist_run (ibke_machine I) _ y s rr); [exact HY|]. cbn [ibke_machine m_run]. rewrite R. reflexivity.
      * apply opened_err; assumption.
      * rewrite open_after_err, fresh_first_snoc. exact A'.
Qed.

(** After any log of calls an encrypted session is an inner session behind the key schedule:
    it panics exactly on messages that do not open at its position or open to one on which the
    inner session panics, passes inner errors on, seals inner answers, and is done and
    finalizes as the inner session does. *)
Theorem eue_run_exact : forall P I r ssid mpk cert usk rl key e0 r' l e,
  eue_new P I r ssid mpk cert usk rl key = Ret (e0, r') -> hist (eue_machine P I) e0 l e ->
  exists y s, hist (ibke_machine I) (fst (ik_new I r ssid mpk cert usk rl)) y s /\ opened P key ssid rl I l y /\
    eue_done I e = ik_done I s /\ eue_fin I e = ik_fin I s /\
    forall r1 os c,
      match eue_run P I e r1 os c with
      | Panic => forall m, flight P key ssid (open_pos rl l) m c -> ik_run I s r1 os m = Panic
      | Ret (_, Err er, r2) => exists m s', flight P key ssid (open_pos rl l) m c /\ ik_run I s r1 os m = Ret (s', Err er, r2)
      | Ret (_, Ok o, _) => exists m s' a r2, flight P key ssid (open_pos rl l) m c /\
          ik_run I s r1 os m = Ret (s', Ok a, r2) /\ wire P key ssid (seal_pos rl l) a o
      end.
Proof.
  intros P I r ssid mpk cert usk rl key e0 r' l e N H.
  destruct (eue_hist_opened _ _ _ _ _ _ _ _ _ _ _ _ _ N H) as [y [s [HY [O A]]]]. exists y, s. split; [exact HY|]. split; [exact O|].
  split; [unfold at_pos in A; rewrite A; reflexivity|]. split; [unfold at_pos in A; rewrite A; reflexivity|].
  intros r1 os c. pose proof (eue_call P I key ssid _ rl l s e r1 os c A) as EC.
  destruct (eue_run P I e r1 os c) as [[[e' [o|er]] r2]|].
  - destruct EC as [m [s' [a [r3 [F [R [W _]]]]]]]. exists m, s', a, r3. auto.
  - destruct EC as [m [s' [F [R _]]]]. exists m, s'. auto.
  - exact EC.
Qed.
(** A refused message leaves the session out of step for good: the key under which the peer
    sealed it is gone, so that sending it again, or sending a corrected message sealed like it,
    panics unless it happens to open under the next key of the schedule. *)
Theorem eue_error_loses_key : forall P I r ssid mpk cert usk rl key e0 r' l c er e r1 os c',
  eue_new P I r ssid mpk cert usk rl key = Ret (e0, r') ->
  hist (eue_machine P I) e0 (l ++ [(c, Err er)]) e -> (rl = Initiator -> l <> []) ->
  open_pos rl (l ++ [(c, Err er)] : log (eue_machine P I)) = S (open_pos rl l) /\
  (c' <> [] -> (forall m, auth_decrypt P (key_at P key ssid (S (open_pos rl l))) c' <> Ret (Ok m)) ->
   eue_run P I e r1 os c' = Panic).
Proof.
  intros P I r ssid mpk cert usk rl key e0 r' l c er e r1 os c' N H NE.
  assert (OP : open_pos rl (l ++ [(c, Err er)] : log (eue_machine P I)) = S (open_pos rl l)).
  { rewrite open_after_err, seal_after_open. unfold fresh_first. destruct rl; [|reflexivity]. destruct l; [|reflexivity]. destruct (NE eq_refl eq_refl). }
  split; [exact OP|]. intros NC ND.
  destruct (eue_run_exact _ _ _ _ _ _ _ _ _ _ _ _ _ N H) as [y [s [_ [_ [_ [_ Q]]]]]]. specialize (Q r1 os c').
  rewrite OP in Q. assert (NF : forall m, ~ flight P key ssid (S (open_pos rl l)) m c').
  { intros m [[_ Z0]|[_ D]]; [congruence|]. destruct (ND m D). }
  destruct (eue_run P I e r1 os c') as [[[e' [o|er']] r2]|]; [| |reflexivity].
  - destruct Q as [m [s' [a [r3 [F _]]]]]. destruct (NF m F).
  - destruct Q as [m [s' [F _]]]. destruct (NF m F).
Qed.

(* ------------------------------------------------------------------ *)
(** ** All three answers occur *)
(** A fresh encrypted responder is given the initiator's message sealed (good), the same one
    with its last byte changed before sealing (bad), and the good one after the bad one:
    Some true is Ok, Some false is Err, None is a panic. *)
Definition eue_answers : option bool * option bool * option bool :=
  let I := IdSigDh toy_prims in
  let '(mpk, msk, _) := gen_main I (fun _ => 3) in
  let '(upk, usk, _) := gen_user I (fun _ => 5) in
  let '(cert, _) := ik_extract I (fun _ => 6) msk (repeat 7 32) upk in
  let key := repeat 4 32 in
  let ans {A E} (o : outcome (A * res (option bytes) E * rng)) :=
    match o with Ret (_, Ok _, _) => Some true | Ret (_, Err _, _) => Some false | Panic => None end in
  match ik_run I (fst (ik_new I (fun _ => 0) [1] mpk cert usk Initiator)) (fun _ => 8) (fun _ => 9) [],
        eue_new toy_prims I (fun _ => 0) [1] mpk cert usk Responder key with
  | Ret (_, Ok (Some m), _), Ret (e0, _) =>
    let seal x := fst (auth_encrypt toy_prims (fun _ => 12) (key_at toy_prims key [1] 0) x) in
    let run e x := eue_run toy_prims I e (fun _ => 10) (fun _ => 11) x in
    let bad := seal (bump_last m) in
    (ans (run e0 (seal m)), ans (run e0 bad),
     match run e0 bad with Ret (e1, _, _) => ans (run e1 (seal m)) | Panic => Some true end)
  | _, _ => (None, None, None)
  end.
Example eue_all_answers : eue_answers = (Some true, Some false, None).
Proof. vm_compute. reflexivity. Qed.
