(** Model of src/consumer.rs: a consumer used by any number of concurrent calls.

    The payload type is a parameter with its decoder ([serde_json::from_slice] or
    [TryFrom<Vec<u8>>], src/consumer.rs:80-93, 102-112): [decode] returns [None]
    when decoding fails.

    A schedule is a list of events: a task starts a call, a task makes its next
    atomic step, a task's future is dropped while it waits, an event arrives in
    the client's channel, or the engine goes away. A task's steps are the parts of
    [next_message]/[next_batch] between which other tasks can interfere: each
    access to the atomic counter, the flow command, taking the buffer lock,
    receiving one event. *)
From Verif Require Import Bytes Errors Wire Proto Message.
Open Scope N_scope.

(** src/consumer.rs:32-50, [Message<T>] with its [Ack]. *)
Record cmsg (T : Type) := mk_cmsg { cm_payload : T; cm_ack : message }.
Arguments mk_cmsg {T}. Arguments cm_payload {T}. Arguments cm_ack {T}.

(** src/consumer.rs:98-116: decoding the payloads of a batch; [None] = some
    payload fails to decode, which panics ([unwrap]). *)
Fixpoint decode_parts {T} (decode : bytes -> option T) (parts : list batched) : option (list T) :=
  match parts with
  | [] => Some []
  | p :: r => match decode (bp_data p) with
              | None => None
              | Some v => match decode_parts decode r with None => None | Some l => Some (v :: l) end
              end
  end.
(** src/consumer.rs:118-130: message i gets the entry's id with batch index i. *)
Fixpoint number_from {T} (i : N) (mid : message) (l : list T) : list (cmsg T) :=
  match l with
  | [] => []
  | v :: r => mk_cmsg v (with_batch_index (as_i32 i) mid) :: number_from (i + 1) mid r
  end.
(** src/consumer.rs:74-133, the body of [next] after the client's message arrived. *)
Definition unpack {T} (decode : bytes -> option T) (d : delivery) : outcome (list (cmsg T)) :=
  match d with
  | DSingle _ mid data =>
      match decode data with
      | Some v => Ok [mk_cmsg v mid]
      | None => Err DeserializationFailed
      end
  | DBatch _ mid parts =>
      match decode_parts decode parts with
      | Some l => Ok (number_from 0 mid l)
      | None => Panic
      end
  end.

(** The two kinds of call. *)
Inductive ckind := NextMessage | NextBatch (max_size : nat).

(** Where a call is. *)
Inductive pc (T : Type) :=
| AtCheck (k : ckind)                              (* 214-218: about to read the counter *)
| AtFlow (k : ckind) (c : N)                       (* 219-222: about to send flow *)
| AtStore (k : ckind)                              (* 223-224: about to reset the counter *)
| AtLock (k : ckind)                               (* 139 / 174: waiting for the buffer lock *)
| AtRecv (k : ckind) (taken : list (cmsg T))       (* 154 / 180: lock held, waiting for an event *)
| AtCount (k : ckind) (out : list (cmsg T)).       (* 149, 165 / 186: lock held, about to count *)
Arguments AtCheck {T}. Arguments AtFlow {T}. Arguments AtStore {T}. Arguments AtLock {T}. Arguments AtRecv {T}. Arguments AtCount {T}.

(** What the outside sees, in order: flow commands and results of calls. *)
Inductive cobs (T : Type) :=
| Flowed (permits : N)
| Returned (t : nat) (k : ckind) (r : outcome (list (cmsg T))).
Arguments Flowed {T}. Arguments Returned {T}.

(** src/consumer.rs:53-64, with the client's channel: events received from the
    engine and not yet taken, and whether the engine still exists. *)
Record cons (T : Type) := mk_cons {
  c_permits : N;              (* message_permits *)
  c_counter : N;              (* current_message_permits, u32 *)
  c_buf : list (cmsg T);      (* batched_message_buffer *)
  c_lock : option nat;        (* the task holding its mutex *)
  c_queue : list inbound;
  c_open : bool;
  c_tasks : nat -> option (pc T);
  c_log : list (cobs T) }.
Arguments mk_cons {T}. Arguments c_permits {T}. Arguments c_counter {T}. Arguments c_buf {T}. Arguments c_lock {T}.
Arguments c_queue {T}. Arguments c_open {T}. Arguments c_tasks {T}. Arguments c_log {T}.

Inductive cev :=
| Start (t : nat) (k : ckind)
| Step (t : nat)
| Drop (t : nat)
| Arrive (i : inbound)
| Close.

Definition set_task {T} (f : nat -> option (pc T)) (t : nat) (p : option (pc T)) : nat -> option (pc T) :=
  fun u => if (u =? t)%nat then p else f u.
(** The call goes on at [p]. *)
Definition goto {T} (s : cons T) (t : nat) (p : pc T) : cons T :=
  mk_cons (c_permits s) (c_counter s) (c_buf s) (c_lock s) (c_queue s) (c_open s) (set_task (c_tasks s) t (Some p)) (c_log s).
(** The call returns [r]; a guard it holds is released, also when it panics
    (futures::lock::Mutex has no poisoning). *)
Definition finish {T} (s : cons T) (t : nat) (k : ckind) (r : outcome (list (cmsg T))) (lock : option nat) : cons T :=
  mk_cons (c_permits s) (c_counter s) (c_buf s) lock (c_queue s) (c_open s) (set_task (c_tasks s) t None)
    (c_log s ++ [Returned t k r]).
Definition with_counter {T} (s : cons T) (n : N) : cons T :=
  mk_cons (c_permits s) n (c_buf s) (c_lock s) (c_queue s) (c_open s) (c_tasks s) (c_log s).
Definition with_buf {T} (s : cons T) (b : list (cmsg T)) : cons T :=
  mk_cons (c_permits s) (c_counter s) b (c_lock s) (c_queue s) (c_open s) (c_tasks s) (c_log s).
Definition with_lock {T} (s : cons T) (l : option nat) : cons T :=
  mk_cons (c_permits s) (c_counter s) (c_buf s) l (c_queue s) (c_open s) (c_tasks s) (c_log s).
Definition with_queue {T} (s : cons T) (q : list inbound) : cons T :=
  mk_cons (c_permits s) (c_counter s) (c_buf s) (c_lock s) q (c_open s) (c_tasks s) (c_log s).
Definition with_log {T} (s : cons T) (o : cobs T) : cons T :=
  mk_cons (c_permits s) (c_counter s) (c_buf s) (c_lock s) (c_queue s) (c_open s) (c_tasks s) (c_log s ++ [o]).

(** [while messages.len() < max { match v.pop() ... push }] (141-146, 156-161):
    takes up to [n] messages from the end of [v]; returns them in the order they
    are pushed, and what remains of [v]. *)
Definition pop_up_to {T} (n : nat) (v : list (cmsg T)) : list (cmsg T) * list (cmsg T) :=
  (firstn n (rev v), rev (skipn n (rev v))).

(** One atomic step of the call of task [t] at [p]; [None] = it has to wait. *)
Definition call_step {T} (decode : bytes -> option T) (s : cons T) (t : nat) (p : pc T) : option (cons T) :=
  match p with
  | AtCheck k =>
      Some (goto s t (if c_permits s <=? c_counter s then AtFlow k (c_counter s) else AtLock k))
  | AtFlow k c =>
      (* 219-222; u32 arithmetic as in release builds *)
      if c_open s then
        Some (goto (with_log s (Flowed ((c_permits s * 2 + (c - c_permits s)) mod u32_max))) t (AtStore k))
      else Some (finish s t k (Err ChannelTerminated) (c_lock s))
  | AtStore k => Some (goto (with_counter s 0) t (AtLock k))
  | AtLock NextMessage =>
      match c_lock s with
      | Some _ => None
      | None =>
          match c_buf s with
          | m :: r => Some (finish (with_buf s r) t NextMessage (Ok [m]) None)         (* 175-178 *)
          | [] => Some (goto (with_lock s (Some t)) t (AtRecv NextMessage []))
          end
      end
  | AtLock (NextBatch n) =>
      match c_lock s with
      | Some _ => None
      | None =>
          let (taken, rest) := pop_up_to n (c_buf s) in                                 (* 140-146 *)
          Some (goto (with_lock (with_buf s rest) (Some t)) t
                 (if (length taken =? n)%nat then AtCount (NextBatch n) taken           (* 148 *)
                  else AtRecv (NextBatch n) taken))
      end
  | AtRecv k taken =>
      match c_queue s with
      | [] => if c_open s then None else Some (finish s t k (Err ChannelTerminated) None)
      | InMessage d :: q =>
          let s1 := with_queue s q in
          match unpack decode d with
          | Err e => Some (finish s1 t k (Err e) None)
          | Panic => Some (finish s1 t k Panic None)
          | Ok ms =>
              match k with
              | NextMessage =>                                                           (* 182-184 *)
                  match ms with
                  | [] => Some (finish s1 t k Panic None)
                  | m :: r => Some (goto (with_buf s1 (c_buf s ++ r)) t (AtCount k [m]))
                  end
              | NextBatch n =>                                                           (* 156-161 *)
                  Some (goto s1 t (AtCount k (taken ++ fst (pop_up_to (n - length taken) ms))))
              end
          end
      | _ :: q => Some (with_queue s q)               (* src/client.rs:252-260: not a message, keep waiting *)
      end
  | AtCount k out =>
      let s1 := with_counter s ((c_counter s + N.of_nat (length out)) mod u32_max) in
      Some (finish s1 t k (Ok out) None)
  end.

(** Points at which a future can be dropped: before it is first polled, waiting
    for the lock, waiting for an event. The guard is released; messages the call
    has already taken are dropped with it. *)
Definition drop_step {T} (s : cons T) (t : nat) (p : pc T) : option (cons T) :=
  let gone := fun l => mk_cons (c_permits s) (c_counter s) (c_buf s) l (c_queue s) (c_open s) (set_task (c_tasks s) t None) (c_log s) in
  match p with
  | AtCheck _ => Some (gone (c_lock s))
  | AtLock _ => Some (gone (c_lock s))
  | AtRecv _ _ => Some (gone None)
  | _ => None
  end.

Definition cstep {T} (decode : bytes -> option T) (s : cons T) (e : cev) : option (cons T) :=
  match e with
  | Start t k => match c_tasks s t with Some _ => None | None => Some (goto s t (AtCheck k)) end
  | Step t => match c_tasks s t with Some p => call_step decode s t p | None => None end
  | Drop t => match c_tasks s t with Some p => drop_step s t p | None => None end
  | Arrive i => if c_open s then Some (with_queue s (c_queue s ++ [i])) else None
  | Close => Some (mk_cons (c_permits s) (c_counter s) (c_buf s) (c_lock s) (c_queue s) false (c_tasks s) (c_log s))
  end.
Fixpoint crun {T} (decode : bytes -> option T) (s : cons T) (h : list cev) : option (cons T) :=
  match h with
  | [] => Some s
  | e :: r => match cstep decode s e with Some s1 => crun decode s1 r | None => None end
  end.

(** src/consumer.rs:376-383: a new consumer; the initial flow of twice the window
    (244) has been sent. *)
Definition cons_init {T} (permits : N) : cons T := mk_cons permits 0 [] None [] true (fun _ => None) [].
