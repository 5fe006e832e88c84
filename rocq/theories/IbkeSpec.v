(** * IbkeSpec: what an identity-based key exchange promises, as predicates over the trait. *)
From Coq Require Import ZArith List Lia Bool String.
From Verif Require Import Base Crypto Driver.
Import ListNotations.
Open Scope Z_scope.

(** A user enrolled under the main secret key [msk] with identity [id]: some call to
    gen_user_keypair gave the key pair and some call to extract gave the certificate. *)
Definition enrolled (I : ibke) (msk : MSK I) (id : bytes) (cert : CERT I) (usk : USK I) : Prop :=
  exists ru upk ru' re re',
    gen_user I ru = (upk, usk, ru') /\ ik_extract I re msk id upk = (cert, re').

(** Agreement of one pair of sessions in [n] messages: the two sessions exchange n non-empty
    messages, the next call returns nothing, both are done, each outputs the other's id, and
    both output the same 32-byte key. *)
Definition agrees_at (I : ibke) (n : nat) (mpk : MPK I) (idI idR : bytes) (certI certR : CERT I)
    (uskI uskR : USK I) (ssid : bytes) (rI rR : rng) (tape : nat -> rng * rng) : Prop :=
    exists msgs sI sR k,
      honest_run (ibke_machine I) (n + 2) tape
        (fst (ik_new I rI ssid mpk certI uskI Initiator))
        (fst (ik_new I rR ssid mpk certR uskR Responder))
      = Res Completed (map Some msgs ++ [None]) sI sR /\
      List.length msgs = n /\ Forall (fun m => m <> []) msgs /\
      ik_done I sI = true /\ ik_done I sR = true /\
      ik_fin I sI = Ret (idR, k) /\ ik_fin I sR = Ret (idI, k) /\ List.length k = 32%nat.
(** Honest agreement in [n] messages: for every main key pair, every two users enrolled under
    it, every ssid and all randomness (subject to [ok], a condition on the randomness of the
    calls), the sessions agree. *)
Definition honest_agreement (I : ibke) (n : nat) (ok : (nat -> rng * rng) -> Prop) : Prop :=
  forall rm mpk msk rm' idI idR certI certR uskI uskR ssid rI rR tape,
    gen_main I rm = (mpk, msk, rm') ->
    List.length idI = 32%nat -> List.length idR = 32%nat ->
    enrolled I msk idI certI uskI -> enrolled I msk idR certR uskR ->
    ok tape ->
    agrees_at I n mpk idI idR certI certR uskI uskR ssid rI rR tape.

(** Sessions under any interleaving of [run] (arbitrary messages and randomness, failed calls
    included) and [run_sim]. *)
Inductive mixed (I : ibke) (s0 : IST I) : IST I -> Prop :=
| mixed_init : mixed I s0 s0
| mixed_run : forall s r os m s' o r', mixed I s0 s -> ik_run I s r os m = Ret (s', o, r') -> mixed I s0 s'
| mixed_sim : forall s s' n, mixed I s0 s -> ik_sim I s = Ret (s', n) -> mixed I s0 s'.

(** The sessions of enrolled users, at the start. *)
Definition fresh_session (I : ibke) (s : IST I) : Prop :=
  exists rm mpk msk rm' id cert usk r ssid rl,
    gen_main I rm = (mpk, msk, rm') /\ List.length id = 32%nat /\ enrolled I msk id cert usk /\
    s = fst (ik_new I r ssid mpk cert usk rl).

(** run_sim predicts the size: in every state, whenever [run] would succeed, [run_sim]
    succeeds and returns the size of the message that [run] sends, None if it sends none. *)
Definition sim_predicts_size (I : ibke) : Prop :=
  forall s0 s, fresh_session I s0 -> mixed I s0 s ->
  forall r os m s' out r', ik_run I s r os m = Ret (s', Ok out, r') ->
    exists s'', ik_sim I s = Ret (s'', option_map (@List.length Z) out).
(** run_sim completes like run: whenever both succeed in a state, they agree on is_done. *)
Definition sim_completes (I : ibke) : Prop :=
  forall s0 s, fresh_session I s0 -> mixed I s0 s ->
  forall r os m s' out r' s'' n, ik_run I s r os m = Ret (s', Ok out, r') ->
    ik_sim I s = Ret (s'', n) -> ik_done I s'' = ik_done I s'.

(** finalize returns an id and a key exactly in completed sessions. *)
Definition ibke_fin_iff_done (I : ibke) : Prop :=
  forall s0 s, fresh_session I s0 -> reach (ibke_machine I) s0 s ->
    (ik_done I s = true <-> exists id k, ik_fin I s = Ret (id, k)).

(* ------------------------------------------------------------------ *)
(** ** Shared facts *)
Lemma keygen_ok : forall P s r pk sk r', sig_correct P s -> sig_keygen P s r = (pk, sk, r') ->
  (forall m, verify P s pk m (sign P s sk m) = true) /\ p_pk_valid P s pk = true /\
  List.length pk = pk_len s /\ List.length sk = sk_len s.
Proof.
  intros P s r pk sk r' C H. unfold sig_keygen in H.
  destruct (draw 32 r) as [coins r1] eqn:D.
  assert (L : List.length coins = 32%nat) by (pose proof (draw_length 32 r) as X; rewrite D in X; exact X).
  injection H as <- <- _. pose proof (fun m => C coins m L) as K. cbn zeta in K.
  split; [intro m; apply K|]. split; [apply (K [])|]. split; apply bytes_of_length.
Qed.
Lemma draw_eq : forall n r b r', draw n r = (b, r') -> List.length b = n /\ is_bytes b /\ r' = snd (draw n r).
Proof. intros n r b r' H. pose proof (draw_length n r) as L. pose proof (draw_bytes n r) as B. rewrite H in *. auto. Qed.
Lemma nonempty_of_length : forall (m : bytes) n, List.length m = S n -> m <> [].
Proof. intros m n H ->. discriminate. Qed.

(** Inversion of a chain of binds that returned. *)
Ltac obi H := repeat match type of H with
  | obind ?x _ = Ret _ => let E := fresh "E" in destruct x eqn:E; [cbn [obind] in H|discriminate H]
  | (let '(_, _) := ?x in _) = _ => let E := fresh "E" in destruct x eqn:E; cbn beta iota in H
  | assert_ ?b _ = Ret _ => let E := fresh "E" in destruct b eqn:E; cbn [assert_] in H; [|discriminate H]
  | Panic = Ret _ => discriminate H
  end.
