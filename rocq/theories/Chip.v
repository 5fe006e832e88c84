(** * Chip: model of latke/src/chip.rs. *)
From Coq Require Import ZArith List Lia Bool String.
From Verif Require Import Base Crypto Symmetric Driver.
Import ListNotations.
Open Scope Z_scope.

Section CHIP.
Variable P : prims.
Variable G : group.
Variable K : pake.

(** chip.rs 16-20: [struct ChipPwfile]. *)
Record chip_pwfile := ChipPw { cp_X : point G; cp_Y : point G; cp_xhat : scalar G }.

(** chip.rs 24-41: [struct Chip].  Every field, with the step counter last. *)
Record chip := Chip {
  ch_pwfile : chip_pwfile;
  ch_ssid : bytes;
  ch_other : bytes;
  ch_role : role;
  ch_r : scalar G;
  ch_pake : option (PST K);
  ch_sent : list bytes;
  ch_recv : list bytes;
  ch_step : nat
}.

(** chip.rs 50-55 and 168-173: the hash of an id and the encoding of X. *)
Definition chip_hash (id Xb : bytes) : scalar G := s_from_hash P G ([2] ++ id ++ Xb).
(** chip.rs 44-60: [gen_pwfile]. *)
Definition chip_gen_pwfile (r : rng) (pw id : bytes) : chip_pwfile :=
  let (x, _) := s_random G r in
  let y := s_from_hash P G ([1] ++ pw) in
  let X := g_base G x in
  let Y := g_base G y in
  let h := chip_hash id (compress G X) in
  ChipPw X Y (s_add G x (s_mul G h y)).

(** chip.rs 62-84: [new_session]. *)
Definition chip_new (r : rng) (ssid : bytes) (pf : chip_pwfile) (rl : role) (other : bytes) : chip * rng :=
  let (r0, r') := s_random G r in
  (Chip pf ssid other rl r0 None [] [] (first_step rl), r').

(** chip.rs 137-149: [ibke_step_1]. *)
Definition chip_step_1 (s : chip) (r : rng) : chip * bytes * rng :=
  let (x, r') := s_random G r in
  let msg := compress G (cp_X (ch_pwfile s)) ++ compress G (g_base G x) in
  (Chip (ch_pwfile s) (ch_ssid s) (ch_other s) (ch_role s) x (ch_pake s) (ch_sent s ++ [msg]) (ch_recv s) (ch_step s), msg, r').

(** chip.rs 176-188: [zip] stops at the shorter transcript. *)
Definition chip_zip (a b : list bytes) : bytes := List.concat (map2 (fun v w => v ++ w) a b).

(** chip.rs 152-190: [ibke_step_2], returning the PAKE input. *)
Definition chip_step_2 (s : chip) (m : bytes) : outcome (chip * bytes) :=
  let recv := ch_recv s ++ [m] in
  let! (Xb, Rb) := split_at 32 m in
  assert_ (List.length Rb =? 32)%nat (
  let! X := decompress G Xb in
  let! R := decompress G Rb in
  let h := chip_hash (ch_other s) Xb in
  let alpha := g_mul G R (ch_r s) in
  let beta := g_mul G (g_add G (g_add G R X) (g_mul G (cp_Y (ch_pwfile s)) h)) (s_add G (ch_r s) (cp_xhat (ch_pwfile s))) in
  let tr := if role_eqb (ch_role s) Initiator then chip_zip (ch_sent s) recv else chip_zip recv (ch_sent s) in
  Ret (Chip (ch_pwfile s) (ch_ssid s) (ch_other s) (ch_role s) (ch_r s) (ch_pake s) (ch_sent s) recv (ch_step s),
       compress G alpha ++ compress G beta ++ tr)).

(** chip.rs 96, 100: [self.tr_recv.push(incoming_msg.to_vec())]. *)
Definition chip_push (s : chip) (m : bytes) : chip :=
  Chip (ch_pwfile s) (ch_ssid s) (ch_other s) (ch_role s) (ch_r s) (ch_pake s) (ch_sent s) (ch_recv s ++ [m]) (ch_step s).
(** chip.rs 126: [self.next_step += 2]. *)
Definition chip_next (s : chip) : chip :=
  Chip (ch_pwfile s) (ch_ssid s) (ch_other s) (ch_role s) (ch_r s) (ch_pake s) (ch_sent s) (ch_recv s) (ch_step s + 2).
(** [self.pake_state = Some(pake_state)], or the mutation through [as_mut()]. *)
Definition chip_set (s : chip) (p : PST K) : chip :=
  Chip (ch_pwfile s) (ch_ssid s) (ch_other s) (ch_role s) (ch_r s) (Some p) (ch_sent s) (ch_recv s) (ch_step s).

(** chip.rs 102-108 and 114-120: create the PAKE and run it once.  An error returns before the
    new PAKE state is stored. *)
Definition chip_start (s : chip) (r os : rng) (rl : role) (w m : bytes) : outcome (chip * res (option bytes) (PERR K)) :=
  let! (p, _) := pk_new K r (ch_ssid s) w rl in
  let! (p', o) := pk_run K p os m in
  match o with
  | Ok out => Ret (chip_next (chip_set s p'), Ok out)
  | Err e => Ret (s, Err e)
  end.

(** chip.rs 87-128: [run]. *)
Definition chip_run (s : chip) (r os : rng) (m : bytes) : outcome (chip * res (option bytes) (PERR K)) :=
  match ch_step s with
  | 0%nat => let '(s1, msg, _) := chip_step_1 s r in Ret (chip_next s1, Ok (Some msg))
  | 1%nat => let '(s1, msg, _) := chip_step_1 (chip_push s m) r in Ret (chip_next s1, Ok (Some msg))
  | 2%nat =>
    let! (s1, w) := chip_step_2 (chip_push s m) m in
    chip_start s1 r os Initiator w []
  | 3%nat =>
    let! lst := unwrap (match rev (ch_recv s) with x :: _ => Some x | [] => None end) in
    let! (s1, w) := chip_step_2 s lst in
    chip_start s1 r os Responder w m
  | _ =>
    let! p := unwrap (ch_pake s) in
    let! (p', o) := pk_run K p os m in
    match o with
    | Ok out => Ret (chip_next (chip_set s p'), Ok out)
    | Err e => Ret (chip_set s p', Err e)
    end
  end.

(** chip.rs 131-134: [finalize]. *)
Definition chip_fin (s : chip) : outcome bytes :=
  let! p := unwrap (ch_pake s) in pk_fin K p.

(** A CHIP session has no [is_done]: its driver (chip.rs 221-233) stops at the first call that
    returns no message. *)
Definition chip_machine : machine := {|
  m_st := chip; m_err := PERR K;
  m_run := fun s rr m => chip_run s (fst rr) (snd rr) m;
  m_done := fun _ => false |}.
End CHIP.
Arguments ChipPw {G}. Arguments cp_X {G}. Arguments cp_Y {G}. Arguments cp_xhat {G}.
Arguments Chip {G K}. Arguments ch_pwfile {G K}. Arguments ch_ssid {G K}. Arguments ch_other {G K}.
Arguments ch_role {G K}. Arguments ch_r {G K}. Arguments ch_pake {G K}. Arguments ch_sent {G K}.
Arguments ch_recv {G K}. Arguments ch_step {G K}.

(** chip.rs 221-233: the loop that relays messages until a call returns none. *)
Fixpoint relay (M : machine) (fuel : nat) (turn : role) (tape : nat -> rng * rng)
  (sI sR : m_st M) (msg : bytes) : result M :=
  match fuel with
  | O => Res OutOfFuel [] sI sR
  | S f =>
    match m_run M (sel turn sI sR) (tape O) msg with
    | Panic => Res Panicked [] sI sR
    | Ret (s', Err e) => Res Errored [] (sel turn s' sI) (sel turn sR s')
    | Ret (s', Ok None) => Res Completed [None] (sel turn s' sI) (sel turn sR s')
    | Ret (s', Ok (Some m)) =>
      let r := relay M f (flip turn) (shift tape) (sel turn s' sI) (sel turn sR s') m in
      Res (r_status r) (Some m :: r_outs r) (r_init r) (r_resp r)
    end
  end.
