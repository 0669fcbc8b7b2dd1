(** Model of src/engine.rs: a pair of [EngineConnection]s, i.e. two unbounded
    async_channel queues wired crosswise. The element type [A] is the
    [Result<_, NeutronError>] that travels. *)
From Verif Require Import Bytes Errors.

(** The two ends returned by [pair], in that order (src/engine.rs:24-35). *)
Inductive side := L | R.
Definition other (s : side) : side := match s with L => R | R => L end.

(** src/engine.rs:10-14 and 28-34: channel 1 carries what L sends (tx1) to R
    (rx1), channel 2 what R sends (tx2) to L (rx2). *)
Record pair_st (A : Type) := mk_pair { ch1 : list A; ch2 : list A; live_l : bool; live_r : bool }.
Arguments mk_pair {A}. Arguments ch1 {A}. Arguments ch2 {A}. Arguments live_l {A}. Arguments live_r {A}.
Definition pair_init {A} : pair_st A := mk_pair [] [] true true.

Definition live {A} (x : side) (s : pair_st A) : bool := match x with L => live_l s | R => live_r s end.
(** The queue end [x] sends into ([tx]) and the one it receives from ([rx]). *)
Definition tx {A} (x : side) (s : pair_st A) : list A := match x with L => ch1 s | R => ch2 s end.
Definition rx {A} (x : side) (s : pair_st A) : list A := match x with L => ch2 s | R => ch1 s end.
Definition set_tx {A} (x : side) (q : list A) (s : pair_st A) : pair_st A :=
  match x with L => mk_pair q (ch2 s) (live_l s) (live_r s) | R => mk_pair (ch1 s) q (live_l s) (live_r s) end.
Definition set_rx {A} (x : side) (q : list A) (s : pair_st A) : pair_st A :=
  match x with L => mk_pair (ch1 s) q (live_l s) (live_r s) | R => mk_pair q (ch2 s) (live_l s) (live_r s) end.
Definition kill {A} (x : side) (s : pair_st A) : pair_st A :=
  match x with L => mk_pair (ch1 s) (ch2 s) false (live_r s) | R => mk_pair (ch1 s) (ch2 s) (live_l s) false end.

Inductive ch_ev (A : Type) := ChSend (x : side) (a : A) | ChRecv (x : side) | ChDrop (x : side).
Arguments ChSend {A}. Arguments ChRecv {A}. Arguments ChDrop {A}.
Inductive ch_obs (A : Type) := Sent | Received (a : A) | Failed (e : nerr) | Dropped.
Arguments Sent {A}. Arguments Received {A}. Arguments Failed {A}. Arguments Dropped {A}.

(** src/engine.rs:38-50, [send] and [recv]; async_channel: a send fails once the
    receiving end is gone; a receive takes the oldest element, fails once the
    queue is empty and the sending end is gone, and otherwise waits ([None]).
    Using a dropped end is impossible ([None]). *)
Definition ch_step {A} (s : pair_st A) (e : ch_ev A) : option (pair_st A * ch_obs A) :=
  match e with
  | ChSend x a =>
      if live x s then
        if live (other x) s then Some (set_tx x (tx x s ++ [a]) s, Sent) else Some (s, Failed ChannelTerminated)
      else None
  | ChRecv x =>
      if live x s then
        match rx x s with
        | a :: q => Some (set_rx x q s, Received a)
        | [] => if live (other x) s then None else Some (s, Failed ChannelTerminated)
        end
      else None
  | ChDrop x => if live x s then Some (kill x s, Dropped) else None
  end.
Fixpoint ch_run {A} (s : pair_st A) (h : list (ch_ev A)) : option (pair_st A * list (ch_ev A * ch_obs A)) :=
  match h with
  | [] => Some (s, [])
  | e :: r => match ch_step s e with
              | None => None
              | Some (s1, o) => match ch_run s1 r with
                                | None => None
                                | Some (s2, t) => Some (s2, (e, o) :: t)
                                end
              end
  end.
