(** Model of src/client.rs, and of the builders' [connect] in src/consumer.rs and
    src/producer.rs, which are sequences of client calls. *)
From Verif Require Import Bytes Errors Wire Proto Address Message.
Open Scope N_scope.

(** * Numbering and queueing (src/client.rs:20-26, 75-95)

    Each call first builds its request, taking a number from an atomic counter,
    and then puts it into the engine channel. Both steps are atomic, but other
    tasks may run between them. *)
Definition two64 : N := 18446744073709551616.
(** [AtomicU64::fetch_add(1)]: returns the old value, wraps around. *)
Definition bump (n : N) : N := (n + 1) mod two64.

Inductive call :=
| CConnect | CConnectProxy (proxy : bytes) | CLookup (topic : bytes) | CProducer (topic : bytes)
| CSubscribe (topic subscription : bytes) | CAck (mid : message)
| CSend (data : bytes) | CSendBatch (datas : list bytes) | CFlow (permits : N).

(** The counters (src/client.rs:24-25, both start at 0: 79-80). *)
Record counters := mk_counters { request_id : N; sequence_id : N }.

(** The request struct each call builds: connect (132-140), connect_to_proxy
    (142-153), lookup_topic (158-161, 170-173), producer (186-192), subscribe
    (198-205), ack (211-220), send_message (224-233), send_batch_message
    (238-247), flow (262-267). [Ack] is converted to a one-element list
    (src/message.rs:555-559). *)
Definition build (id : N) (name : bytes) (s : counters) (c : call) : outbound * counters :=
  let next_request := mk_counters (bump (request_id s)) (sequence_id s) in
  let next_sequence := mk_counters (request_id s) (bump (sequence_id s)) in
  match c with
  | CConnect => (OConnect (mk_connect None None None), s)
  | CConnectProxy p => (OConnect (mk_connect None None (Some (Proxy [] p))), s)
  | CLookup topic => (OLookup (request_id s) topic, next_request)
  | CProducer topic => (OProducer topic id (request_id s) (Some name), next_request)
  | CSubscribe topic sub => (OSubscribe topic sub id (request_id s) Shared, next_request)
  | CAck mid => (OAck [mk_ack id mid (request_id s)], next_request)
  | CSend data => (OSend (SSingle name id (sequence_id s) data), next_sequence)
  | CSendBatch datas => (OSend (SBatch name id (sequence_id s) datas), next_sequence)
  | CFlow n => (OFlow id n, s)
  end.

(** A client used by several tasks: what was built (in order), what was put into
    the engine channel (in order), and what each task has built but not yet put. *)
Record client_st := mk_client {
  cl_cnt : counters; cl_built : list outbound; cl_queue : list outbound; cl_hand : list (nat * outbound) }.
Definition client_init : client_st := mk_client (mk_counters 0 0) [] [] [].
Inductive cl_ev := Build (task : nat) (c : call) | Enqueue (task : nat).
Fixpoint take_hand (t : nat) (l : list (nat * outbound)) : option (outbound * list (nat * outbound)) :=
  match l with
  | [] => None
  | (u, o) :: r => if (t =? u)%nat then Some (o, r)
                   else match take_hand t r with Some (x, r') => Some (x, (u, o) :: r') | None => None end
  end.
Definition cl_step (id : N) (name : bytes) (s : client_st) (e : cl_ev) : option client_st :=
  match e with
  | Build t c =>
      match take_hand t (cl_hand s) with
      | Some _ => None      (* a task makes one call at a time *)
      | None => let (o, n) := build id name (cl_cnt s) c in
                Some (mk_client n (cl_built s ++ [o]) (cl_queue s) (cl_hand s ++ [(t, o)]))
      end
  | Enqueue t =>
      match take_hand t (cl_hand s) with
      | Some (o, h) => Some (mk_client (cl_cnt s) (cl_built s) (cl_queue s ++ [o]) h)
      | None => None
      end
  end.
Fixpoint cl_run (id : N) (name : bytes) (s : client_st) (h : list cl_ev) : option client_st :=
  match h with
  | [] => Some s
  | e :: r => match cl_step id name s e with Some s1 => cl_run id name s1 r | None => None end
  end.

(** * Calls that wait for answers

    A program issues requests and continues with what comes back. *)
Inductive reply :=
| Resolved (i : inbound)   (* the oneshot got an event *)
| Cancelled                (* the oneshot was dropped *)
| NotQueued.               (* the engine channel is closed *)
Inductive prog :=
| Done (r : outcome unit)
| Ask (o : outbound) (k : outcome inbound -> prog)    (* send_command_and_resolve, then await *)
| Post (o : outbound) (k : outcome unit -> prog).     (* send_command *)

(** src/client.rs:94-123, [send_command_and_resolve] followed by awaiting the
    returned future; [Ok(Err(_))] never travels through the oneshot. *)
Definition ask_result (o : outbound) (r : reply) : outcome inbound :=
  match r with
  | Resolved i => match resp_of o with Some k => convert k i | None => Err Unresolvable end
  | Cancelled => Err ChannelTerminated
  | NotQueued => Err ChannelTerminated
  end.
(** src/client.rs:84-92, [send_command]. *)
Definition post_result (r : reply) : outcome unit :=
  match r with NotQueued => Err ChannelTerminated | _ => Ok tt end.

(** [?] on the result of a call. *)
Definition try_ {A} (x : outcome A) (k : A -> prog) : prog :=
  match x with Ok a => k a | Err e => Done (Err e) | Panic => Done Panic end.

Definition ask (id : N) (name : bytes) (s : counters) (c : call) (k : counters -> inbound -> prog) : prog :=
  let (o, s') := build id name s c in Ask o (fun x => try_ x (k s')).
Definition post (id : N) (name : bytes) (s : counters) (c : call) (k : counters -> prog) : prog :=
  let (o, s') := build id name s c in Post o (fun x => try_ x (fun _ => k s')).

(** src/client.rs:155-184, [lookup_topic]. *)
Definition lookup_topic (id : N) (name topic : bytes) (s : counters) (k : counters -> prog) : prog :=
  ask id name s (CLookup topic) (fun s1 i =>
    match i with
    | InLookup r =>
        match lr_type r with
        | LConnect =>
            if lr_proxy r then
              ask id name s1 (CConnectProxy (lr_url r)) (fun s2 _ =>
              ask id name s2 (CLookup topic) (fun s3 _ => k s3))
            else k s1
        | LRedirect => Done Panic
        | LFailed => Done (Err ConnectionFailed)
        end
    | _ => Done Panic                        (* excluded by [convert] *)
    end).

(** src/consumer.rs:230-247, [Consumer::connect]; [permits] is [message_permits],
    250 in the library (378), so [permits * 2] does not overflow u32. *)
Definition consumer_connect (id : N) (name topic subscription : bytes) (permits : N) (s : counters) : prog :=
  ask id name s CConnect (fun s1 _ =>
  lookup_topic id name topic s1 (fun s2 =>
  ask id name s2 (CSubscribe topic subscription) (fun s3 _ =>
  post id name s3 (CFlow (permits * 2)) (fun _ => Done (Ok tt))))).

(** src/producer.rs:48-52, [Producer::connect]. *)
Definition producer_connect (id : N) (name topic : bytes) (s : counters) : prog :=
  ask id name s CConnect (fun s1 _ =>
  lookup_topic id name topic s1 (fun s2 =>
  ask id name s2 (CProducer topic) (fun _ _ => Done (Ok tt)))).

(** src/consumer.rs:378 and src/client.rs:79-80: what the builders start with. *)
Definition default_permits : N := 250.
Definition fresh : counters := mk_counters 0 0.

(** Running a program against a list of replies: the requests it made (without one
    that the closed channel refused), and its
    result if it has finished. *)
Fixpoint exec (p : prog) (rs : list reply) : list outbound * option (outcome unit) :=
  match p with
  | Done r => ([], Some r)
  | Ask o k =>
      match rs with
      | [] => ([o], None)
      | NotQueued :: rs' => exec (k (ask_result o NotQueued)) rs'
      | r :: rs' => let (l, x) := exec (k (ask_result o r)) rs' in (o :: l, x)
      end
  | Post o k =>
      match rs with
      | [] => ([o], None)
      | NotQueued :: rs' => exec (k (post_result NotQueued)) rs'
      | r :: rs' => let (l, x) := exec (k (post_result r)) rs' in (o :: l, x)
      end
  end.
