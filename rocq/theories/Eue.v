(** * Eue: model of latke/src/eue_transform.rs, and its simulation of the inner protocol. *)
From Coq Require Import ZArith List Lia Bool String.
From Verif Require Import Base Crypto Symmetric Driver.
Import ListNotations.
Open Scope Z_scope.

Section EUE.
Variable P : prims.
Variable I : ibke.

(** eue_transform.rs 8-23: [struct Eue]. *)
Record eue := Eue {
  e_msg_key : bytes;
  e_chain_key : bytes;
  e_sess : IST I;
  e_first : bool;      (* next_step_is_first *)
  e_real : bool        (* real_mode *)
}.

(** eue_transform.rs 26-31: [ratchet_keys].  [from_prk] reads the old chain key before it is
    overwritten; both new keys are expanded from the old one. *)
Definition ratchet_keys (e : eue) : outcome eue :=
  let! hk := from_prk (e_chain_key e) in
  let chain := expand P hk (str "chain key") 32 in
  let msg := expand P hk (str "msg key") 64 in
  Ret (Eue msg chain (e_sess e) (e_first e) (e_real e)).

(** eue_transform.rs 33-65: [new_session]. *)
Definition eue_new (r : rng) (ssid : bytes) (mpk : MPK I) (cert : CERT I) (usk : USK I)
  (rl : role) (initial_key : bytes) : outcome (eue * rng) :=
  let (sess, r1) := ik_new I r ssid mpk cert usk rl in
  let! hk := from_prk initial_key in
  let chain := expand P hk (str "init chain key" ++ ssid) 32 in
  let msg := expand P hk (str "init msg key" ++ ssid) 64 in
  Ret (Eue msg chain sess (role_eqb rl Initiator) true, r1).

(** eue_transform.rs 67-69: [is_done]. *)
Definition eue_done (e : eue) : bool := ik_done I (e_sess e).

(** eue_transform.rs 76-90: what the incoming ciphertext decrypts to. *)
Definition eue_incoming (e : eue) (ct : bytes) : outcome (option bytes * eue) :=
  if (0 <? List.length ct)%nat && e_real e then
    let! pt := auth_decrypt P (e_msg_key e) ct in
    assert_ (match pt with Ok _ => true | Err _ => false end)
      (match pt with
       | Err _ => Ret (None, Eue (e_msg_key e) (e_chain_key e) (e_sess e) (e_first e) false)
       | Ok m => Ret (Some m, e)
       end)
  else Ret (Some [], e).

(** eue_transform.rs 92-98: ratchet unless this is the initiator's first step. *)
Definition eue_pre (e : eue) : outcome eue :=
  if negb (e_first e) then ratchet_keys e
  else Ret (Eue (e_msg_key e) (e_chain_key e) (e_sess e) false (e_real e)).

(** eue_transform.rs 108-121: encrypt the outgoing message if there is one, ratchet. *)
Definition eue_post (e : eue) (r : rng) (out : option bytes)
  : outcome (eue * res (option bytes) (IERR I) * rng) :=
  let '(ct, r1) :=
    match out with
    | None => (None, r)
    | Some m => if (0 <? List.length m)%nat
                then let (c, r') := auth_encrypt P r (e_msg_key e) m in (Some c, r')
                else (Some [], r)
    end in
  let! e' := ratchet_keys e in
  Ret (e', Ok ct, r1).

(** eue_transform.rs 71-124: [run]. *)
Definition eue_run (e : eue) (r os : rng) (ct : bytes)
  : outcome (eue * res (option bytes) (IERR I) * rng) :=
  let! (incoming, e1) := eue_incoming e ct in
  let! e2 := eue_pre e1 in
  if e_real e2 then
    let! m := unwrap incoming in
    let! (s', o, r1) := ik_run I (e_sess e2) r os m in
    let e3 := Eue (e_msg_key e2) (e_chain_key e2) s' (e_first e2) (e_real e2) in
    match o with
    | Err er => Ret (e3, Err er, r1)
    | Ok out => eue_post e3 r1 out
    end
  else
    let! (s', sz) := ik_sim I (e_sess e2) in
    let e3 := Eue (e_msg_key e2) (e_chain_key e2) s' (e_first e2) (e_real e2) in
    eue_post e3 r (option_map (fun n => repeat 0 n) sz).

(** eue_transform.rs 126-128: [finalize]. *)
Definition eue_fin (e : eue) : outcome (bytes * bytes) := ik_fin I (e_sess e).

Definition eue_machine : machine := {|
  m_st := eue; m_err := IERR I;
  m_run := fun e rr ct => let! (e', o, _) := eue_run e (fst rr) (snd rr) ct in Ret (e', o);
  m_done := eue_done |}.

End EUE.

Arguments Eue {I}. Arguments e_msg_key {I}. Arguments e_chain_key {I}. Arguments e_sess {I}.
Arguments e_first {I}. Arguments e_real {I}.

(* ------------------------------------------------------------------ *)
(** ** The key schedule, as a specification: position n of the ratchet. *)
Fixpoint chain_at (P : prims) (init ssid : bytes) (n : nat) : bytes :=
  match n with
  | O => expand P init (str "init chain key" ++ ssid) 32
  | S k => expand P (chain_at P init ssid k) (str "chain key") 32
  end.
Definition key_at (P : prims) (init ssid : bytes) (n : nat) : bytes :=
  match n with
  | O => expand P init (str "init msg key" ++ ssid) 64
  | S k => expand P (chain_at P init ssid k) (str "msg key") 64
  end.

(** What travels for the n-th message of the inner protocol: nothing for nothing, and an
    encryption under the n-th key otherwise. *)
Definition wire (P : prims) (init ssid : bytes) (n : nat) (inner outer : option bytes) : Prop :=
  match inner with
  | None => outer = None
  | Some [] => outer = Some []
  | Some m => exists r, outer = Some (fst (auth_encrypt P r (key_at P init ssid n) m))
  end.
Fixpoint wires (P : prims) (init ssid : bytes) (n : nat) (inner outer : list (option bytes)) : Prop :=
  match inner, outer with
  | [], [] => True
  | a :: l, b :: l' => wire P init ssid n a b /\ wires P init ssid (S n) l l'
  | _, _ => False
  end.

Lemma chain_at_length : forall P i s n, List.length (chain_at P i s n) = 32%nat.
Proof. intros P i s [|n]; apply expand_length. Qed.

(** A session at position n of the schedule, in real mode. *)
Definition at_pos (P : prims) (I : ibke) (init ssid : bytes) (n : nat) (first : bool) (s : IST I) (e : eue I) : Prop :=
  e = Eue (key_at P init ssid n) (chain_at P init ssid n) s first true.

Lemma ratchet_at : forall P I init ssid n f s e, at_pos P I init ssid n f s e ->
  exists e', ratchet_keys P I e = Ret e' /\ at_pos P I init ssid (S n) f s e'.
Proof.
  intros P I init ssid n f s e ->. unfold ratchet_keys. cbn [e_chain_key e_sess e_first e_real].
  rewrite from_prk_ok by (rewrite chain_at_length; lia). cbn [obind]. eexists. split; [reflexivity|].
  reflexivity.
Qed.

(** One step of a session that is at position j (already ratcheted for receiving). *)
Definition flight (P : prims) (init ssid : bytes) (j : nat) (inner outer : bytes) : Prop :=
  (inner = [] /\ outer = []) \/
  (outer <> [] /\ auth_decrypt P (key_at P init ssid j) outer = Ret (Ok inner)).

Lemma wire_flight : forall P init ssid n a b, wire P init ssid n a b ->
  flight P init ssid n (opt_bytes a) (opt_bytes b).
Proof.
  intros P init ssid n [[|x m]|] b H; cbn [wire] in H.
  - subst b. left. auto.
  - destruct H as [r ->]. right. cbn [opt_bytes]. split; [|apply auth_roundtrip].
    intro E. apply (f_equal (@List.length Z)) in E. rewrite auth_encrypt_length in E. cbn in E. lia.
  - subst b. left. auto.
Qed.

(** [run] on a session at position j after the initial ratchet (i.e. the state used for
    sending message j). *)
Definition run_rel (P : prims) (I : ibke) (init ssid : bytes) (j : nat)
  (inner : outcome (IST I * res (option bytes) (IERR I) * rng))
  (outer : outcome (eue I * res (option bytes) (IERR I) * rng)) : Prop :=
  match inner with
  | Panic => outer = Panic
  | Ret (s', Err er, _) => exists e' r', outer = Ret (e', Err er, r') /\ e_sess e' = s'
  | Ret (s', Ok a, _) => exists e' b r', outer = Ret (e', Ok b, r') /\
      wire P init ssid j a b /\ at_pos P I init ssid (S j) false s' e'
  end.

Lemma eue_post_at : forall P I init ssid j s e r a, at_pos P I init ssid j false s e ->
  exists e' b r', eue_post P I e r a = Ret (e', Ok b, r') /\
    wire P init ssid j a b /\ at_pos P I init ssid (S j) false s e'.
Proof.
  intros P I init ssid j s e r a H. unfold eue_post.
  destruct (ratchet_at P I init ssid j false s e H) as [e' [R A]].
  destruct a as [[|x m]|].
  - cbn [List.length Nat.ltb Nat.leb]. rewrite R. cbn [obind]. do 3 eexists. split; [reflexivity|]. split; [reflexivity|exact A].
  - replace (0 <? List.length (x :: m))%nat with true by (symmetry; apply Nat.ltb_lt; cbn; lia).
    destruct (auth_encrypt P r (e_msg_key e) (x :: m)) as [c r'] eqn:E. rewrite R. cbn [obind].
    do 3 eexists. split; [reflexivity|]. split; [|exact A].
    exists r. rewrite H in E. cbn [e_msg_key] in E. rewrite E. reflexivity.
  - rewrite R. cbn [obind]. do 3 eexists. split; [reflexivity|]. split; [reflexivity|exact A].
Qed.

(** The initiator's very first step: message 0, key 0. *)
Lemma eue_run_first : forall P I init ssid s e r os, at_pos P I init ssid 0 true s e ->
  run_rel P I init ssid 0 (ik_run I s r os []) (eue_run P I e r os []).
Proof.
  intros P I init ssid s e r os H. unfold at_pos in H. subst e. unfold eue_run, eue_incoming, eue_pre.
  cbn [List.length Nat.ltb Nat.leb andb obind e_first e_real e_sess e_msg_key e_chain_key negb unwrap].
  destruct (ik_run I s r os []) as [[[s' [a|er]] r1]|]; cbn [obind run_rel].
  - apply eue_post_at. reflexivity.
  - do 2 eexists. split; reflexivity.
  - reflexivity.
Qed.
(** Every other step: receive message j under key j, send message j+1 under key j+1. *)
Lemma eue_run_next : forall P I init ssid j s e r os m c, at_pos P I init ssid j false s e ->
  flight P init ssid j m c ->
  run_rel P I init ssid (S j) (ik_run I s r os m) (eue_run P I e r os c).
Proof.
  intros P I init ssid j s e r os m c H F. unfold eue_run.
  assert (IN : eue_incoming P I e c = Ret (Some m, e)).
  { unfold eue_incoming. destruct F as [[-> ->]|[N D]]; [reflexivity|].
    unfold at_pos in H. subst e. cbn [e_real e_msg_key]. destruct c as [|x c]; [congruence|].
    replace (0 <? List.length (x :: c))%nat with true by (symmetry; apply Nat.ltb_lt; cbn; lia).
    cbn [andb]. rewrite D. reflexivity. }
  rewrite IN. cbn [obind]. unfold eue_pre.
  destruct (ratchet_at P I init ssid j false s e H) as [e' [R A]].
  unfold at_pos in H, A. subst e e'. cbn [e_first negb]. rewrite R. cbn [obind]. cbn [e_real unwrap obind e_sess e_msg_key e_chain_key e_first].
  destruct (ik_run I s r os m) as [[[s' [a|er]] r1]|]; cbn [obind run_rel].
  - apply eue_post_at. reflexivity.
  - do 2 eexists. split; reflexivity.
  - reflexivity.
Qed.

(** ** Simulation of whole runs *)
(** Before global step j: the party to move is at position j-1 (or is the initiator before its
    first step), the other one at position j. *)
Definition in_step (P : prims) (I : ibke) (init ssid : bytes) (j : nat) (cur oth : IST I) (ec eo : eue I)
  (m c : bytes) : Prop :=
  match j with
  | O => at_pos P I init ssid 0 true cur ec /\ at_pos P I init ssid 0 false oth eo /\ m = [] /\ c = []
  | S k => at_pos P I init ssid k false cur ec /\ at_pos P I init ssid j false oth eo /\ flight P init ssid k m c
  end.

Definition same_result (P : prims) (I : ibke) (init ssid : bytes) (j : nat)
  (a : result (ibke_machine I)) (b : result (eue_machine P I)) : Prop :=
  r_status a = r_status b /\ wires P init ssid j (r_outs a) (r_outs b) /\
  e_sess (r_init b) = r_init a /\ e_sess (r_resp b) = r_resp a.

Lemma eue_drive : forall P I init ssid f j t tape sI sR eI eR m c,
  in_step P I init ssid j (sel t sI sR) (sel t sR sI) (sel t eI eR) (sel t eR eI) m c ->
  same_result P I init ssid j
    (drive (ibke_machine I) f t tape sI sR m) (drive (eue_machine P I) f t tape eI eR c).
Proof.
  intros P I init ssid f. induction f as [|f IH]; intros j t tape sI sR eI eR m c H.
  { cbn [drive]. assert (e_sess (sel t eI eR) = sel t sI sR /\ e_sess (sel t eR eI) = sel t sR sI) as [A B].
    { destruct j; cbn [in_step] in H; destruct H as [A [B _]]; rewrite A, B; auto. }
    unfold same_result. cbn. destruct t; cbn [sel] in *; auto. }
  assert (S : e_sess (sel t eI eR) = sel t sI sR /\ e_sess (sel t eR eI) = sel t sR sI).
  { destruct j; cbn [in_step] in H; destruct H as [A [B _]]; rewrite A, B; auto. }
  cbn [drive]. cbn [eue_machine ibke_machine m_done m_run m_st]. unfold eue_done. rewrite (proj1 S).
  destruct (ik_done I (sel t sI sR)) eqn:D.
  { unfold same_result. cbn. destruct t; cbn [sel] in S; intuition. }
  assert (RR : run_rel P I init ssid j (ik_run I (sel t sI sR) (fst (tape O)) (snd (tape O)) m)
                 (eue_run P I (sel t eI eR) (fst (tape O)) (snd (tape O)) c)).
  { destruct j as [|k]; cbn [in_step] in H.
    - destruct H as [A [_ [-> ->]]]. apply eue_run_first. exact A.
    - destruct H as [A [_ F]]. apply eue_run_next; assumption. }
  assert (OTH : at_pos P I init ssid j false (sel t sR sI) (sel t eR eI)).
  { destruct j; cbn [in_step] in H; tauto. }
  unfold run_rel in RR.
  destruct (ik_run I (sel t sI sR) (fst (tape O)) (snd (tape O)) m) as [[[s' [a|er]] r1]|] eqn:ER; cbn [obind].
  - destruct RR as [e' [b [r' [-> [W A]]]]]. cbn [obind].
    assert (IS : in_step P I init ssid (Datatypes.S j) (sel (flip t) (sel t s' sI) (sel t sR s'))
      (sel (flip t) (sel t sR s') (sel t s' sI)) (sel (flip t) (sel t e' eI) (sel t eR e'))
      (sel (flip t) (sel t eR e') (sel t e' eI)) (opt_bytes a) (opt_bytes b)).
    { cbn [in_step]. destruct t; cbn [flip sel] in *; (split; [exact OTH|split; [exact A|apply wire_flight; exact W]]). }
    specialize (IH (Datatypes.S j) (flip t) (shift tape) _ _ _ _ _ _ IS).
    unfold same_result in *. cbn [r_status r_outs r_init r_resp wires]. tauto.
  - destruct RR as [e' [r' [-> E]]]. cbn [obind]. unfold same_result. cbn [r_status r_outs r_init r_resp wires].
    destruct t; cbn [sel] in *; intuition.
  - rewrite RR. cbn [obind]. unfold same_result. cbn [r_status r_outs r_init r_resp wires].
    destruct t; cbn [sel] in *; intuition.
Qed.

Lemma eue_new_at : forall P I r ssid mpk cert usk rl init, List.length init = 32%nat ->
  exists e, eue_new P I r ssid mpk cert usk rl init = Ret (e, snd (ik_new I r ssid mpk cert usk rl)) /\
  at_pos P I init ssid 0 (role_eqb rl Initiator) (fst (ik_new I r ssid mpk cert usk rl)) e.
Proof.
  intros. unfold eue_new. destruct (ik_new I r ssid mpk cert usk rl) as [s r1].
  rewrite from_prk_ok by lia. cbn [obind fst snd]. eexists. split; reflexivity.
Qed.
