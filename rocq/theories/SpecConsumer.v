(** Specification for C17, C25-C31: what a consumer should hand out. *)
From Verif Require Import Bytes Errors Wire Proto Message Consumer.
Open Scope N_scope.

(** The messages an entry holds: a single message acknowledged by the entry's id,
    or the parts of a batch in order, the i-th acknowledged by the entry's id
    with batch index i. Undefined ([no list]) if some payload does not decode. *)
Definition holds {T} (decode : bytes -> option T) (d : delivery) (ms : list (cmsg T)) : Prop :=
  match d with
  | DSingle _ mid data => exists v, decode data = Some v /\ ms = [mk_cmsg v mid]
  | DBatch _ mid parts =>
      length ms = length parts /\
      forall i m p, nth_error ms i = Some m -> nth_error parts i = Some p ->
        decode (bp_data p) = Some (cm_payload m) /\ cm_ack m = with_batch_index (as_i32 (N.of_nat i)) mid
  end.

(** The messages of a sequence of events, in order; other events and entries
    that do not decode hold none. (That [unpack] computes [holds] is theorem
    C17_unpack_iff.) *)
Definition event_messages {T} (decode : bytes -> option T) (i : inbound) : list (cmsg T) :=
  match i with InMessage d => match unpack decode d with Ok ms => ms | _ => [] end | _ => [] end.
Definition stream {T} (decode : bytes -> option T) (is : list inbound) : list (cmsg T) :=
  flat_map (event_messages decode) is.

(** The events that arrived in a schedule. *)
Definition arrivals (h : list cev) : list inbound :=
  flat_map (fun e => match e with Arrive i => [i] | _ => [] end) h.
(** The messages returned by calls, in order of return. *)
Definition returned {T} (log : list (cobs T)) : list (cmsg T) :=
  flat_map (fun o => match o with Returned _ _ (Ok ms) => ms | _ => [] end) log.
(** The permits granted by flow commands, in order. *)
Definition grants {T} (log : list (cobs T)) : list N :=
  flat_map (fun o => match o with Flowed n => [n] | _ => [] end) log.
Definition total (l : list N) : N := fold_right N.add 0 l.

(** Schedules that only use next_message. *)
Definition only_next_message (h : list cev) : Prop := forall t k, In (Start t k) h -> k = NextMessage.
(** Schedules that only use next_batch. *)
Definition only_next_batch (h : list cev) : Prop := forall t k, In (Start t k) h -> exists n, k = NextBatch n.
Definition pc_kind {T} (p : pc T) : ckind :=
  match p with AtCheck k => k | AtFlow k _ => k | AtStore k => k | AtLock k => k | AtRecv k _ => k | AtCount k _ => k end.
(** The messages the call holding the buffer lock has taken and not yet returned. *)
Definition pc_hand {T} (p : pc T) : list (cmsg T) := match p with AtRecv _ l => l | AtCount _ l => l | _ => [] end.
Definition in_hand {T} (s : cons T) : list (cmsg T) :=
  match c_lock s with
  | Some t => match c_tasks s t with Some p => pc_hand p | None => [] end
  | None => []
  end.
(** The messages still to be returned, in order: in the hands of the call under
    way, in the buffer, in the channel. *)
Definition pending {T} (decode : bytes -> option T) (s : cons T) : list (cmsg T) :=
  in_hand s ++ c_buf s ++ stream decode (c_queue s).
(** No call is under way. *)
Definition quiet {T} (s : cons T) : Prop := forall t, c_tasks s t = None.
(** A call of task [t] is under way and cannot go on without a new event. *)
Definition waiting {T} (decode : bytes -> option T) (t : nat) (s : cons T) : Prop :=
  c_tasks s t <> None /\ cstep decode s (Step t) = None.
(** Every state of a run with its schedule so far. *)
Definition reaches {T} (decode : bytes -> option T) (permits : N) (h : list cev) (s : cons T) : Prop :=
  crun decode (cons_init permits) h = Some s.
(** Calls never overlap: whenever one starts, none is under way. *)
Fixpoint no_overlap {T} (decode : bytes -> option T) (s : cons T) (h : list cev) : Prop :=
  match h with
  | [] => True
  | e :: r =>
      match e with Start _ _ => quiet s | _ => True end /\
      match cstep decode s e with Some s1 => no_overlap decode s1 r | None => True end
  end.
Definition one_at_a_time {T} (decode : bytes -> option T) (permits : N) (h : list cev) : Prop :=
  no_overlap decode (cons_init permits) h.
Definition single_event (i : inbound) : Prop := forall d, i = InMessage d -> exists c mid data, d = DSingle c mid data.
(** Every message event unpacks (all payloads decode). *)
Definition decodes {T} (decode : bytes -> option T) (i : inbound) : Prop :=
  forall d, i = InMessage d -> exists ms, unpack decode d = Ok ms.
(** An event the connection can produce (src/message.rs:191-229). *)
Definition received (i : inbound) : Prop := exists mc, to_inbound mc = Ok i.

(** * Permits *)
(** Messages returned since the last flow command. *)
Fixpoint since_flow {T} (n : N) (log : list (cobs T)) : N :=
  match log with
  | [] => n
  | Flowed _ :: r => since_flow 0 r
  | Returned _ _ (Ok ms) :: r => since_flow (n + N.of_nat (length ms)) r
  | _ :: r => since_flow n r
  end.
(** Every flow command grants the window plus the messages returned since the
    flow command before it ([n] have been returned before the log starts). *)
Fixpoint flows_exact {T} (window n : N) (log : list (cobs T)) : Prop :=
  match log with
  | [] => True
  | Flowed g :: r => g = window + n /\ flows_exact window 0 r
  | Returned _ _ (Ok ms) :: r => flows_exact window (n + N.of_nat (length ms)) r
  | _ :: r => flows_exact window n r
  end.
(** Permits granted so far: the initial flow of twice the window, and all later ones. *)
Definition granted {T} (window : N) (s : cons T) : N := 2 * window + total (grants (c_log s)).
(** Entries (message events) and messages delivered by the broker. *)
Definition is_entry (i : inbound) : bool := match i with InMessage _ => true | _ => false end.
Definition entries (h : list cev) : N := N.of_nat (length (filter is_entry (arrivals h))).
(** Entries all of whose payloads decode. *)
Definition good_entry {T} (decode : bytes -> option T) (i : inbound) : bool :=
  match i with InMessage d => match unpack decode d with Ok _ => true | _ => false end | _ => false end.
Definition good_entries {T} (decode : bytes -> option T) (h : list cev) : N :=
  N.of_nat (length (filter (good_entry decode) (arrivals h))).
Definition messages_of (d : delivery) : N :=
  match d with DSingle _ _ _ => 1 | DBatch _ _ parts => N.of_nat (length parts) end.
Definition delivered (h : list cev) : N :=
  total (map (fun i => match i with InMessage d => messages_of d | _ => 0 end) (arrivals h)).
(** The broker sends an entry only while it has permits left. *)
Definition broker_respects {T} (decode : bytes -> option T) (window : N) (h : list cev) : Prop :=
  forall h1 d h2 s, h = h1 ++ Arrive (InMessage d) :: h2 -> reaches decode window h1 s ->
    delivered h1 < granted window s.
