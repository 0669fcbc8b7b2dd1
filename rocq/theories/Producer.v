(** Model of src/producer.rs (send, send_all, send_batch) and of the
    acknowledging calls of src/consumer.rs (ack, ack_all).

    [ser] is the payload conversion: [serde_json::to_vec] ([None] = it fails), or
    [Into<Vec<u8>>], which cannot fail. *)
From Verif Require Import Bytes Errors Wire Proto Address Message Client.
Open Scope N_scope.

(** src/producer.rs:63-70, [send]. *)
Definition send {T} (ser : T -> option bytes) (id : N) (name : bytes) (s : counters) (m : T) : prog :=
  match ser m with
  | None => Done (Err SerializationFailed)
  | Some data => ask id name s (CSend data) (fun _ _ => Done (Ok tt))
  end.

(** [collect] of the unwrapped conversions (src/producer.rs:96-105); [None] = panic. *)
Fixpoint ser_all {T} (ser : T -> option bytes) (ms : list T) : option (list bytes) :=
  match ms with
  | [] => Some []
  | m :: r => match ser m with
              | None => None
              | Some d => match ser_all ser r with None => None | Some l => Some (d :: l) end
              end
  end.
(** src/producer.rs:95-112, [send_batch]. *)
Definition send_batch {T} (ser : T -> option bytes) (id : N) (name : bytes) (s : counters) (ms : list T) : prog :=
  match ser_all ser ms with
  | None => Done Panic
  | Some datas => ask id name s (CSendBatch datas) (fun _ _ => Done (Ok tt))
  end.

(** src/consumer.rs:192-195, [ack]. *)
Definition ack (id : N) (name : bytes) (s : counters) (mid : message) : prog :=
  ask id name s (CAck mid) (fun _ _ => Done (Ok tt)).

(** * Calls on many items

    What one request of such a call experiences: refused by the closed channel,
    or queued and then settled (or not yet: [None]). *)
Inductive fate := Refused | Queued (settled : option reply).

(** What the first future of an item yields: [Ok] of the second future (here: what
    that one has come to), or an error. *)
Definition first_stage (o : outbound) (f : fate) : outcome (option (outcome inbound)) :=
  match f with
  | Refused => Err ChannelTerminated
  | Queued r => Ok (match r with Some r => Some (ask_result o r) | None => None end)
  end.
(** src/producer.rs:73-83 with join_all (85): the items are taken in order; each
    is converted, then numbered, then queued. [fates] tells what happens to the
    requests, in order of their making. *)
Fixpoint issue {A} (conv : A -> option call) (id : N) (name : bytes) (s : counters) (items : list A) (fates : list fate) :
  list outbound * list (outcome (option (outcome inbound))) :=
  match items with
  | [] => ([], [])
  | x :: r =>
      match conv x with
      | None => let (made, l) := issue conv id name s r fates in (made, Err SerializationFailed :: l)
      | Some c =>
          let (o, s') := build id name s c in
          let (f, fs) := match fates with f :: fs => (f, fs) | [] => (Queued None, []) end in
          let (made, l) := issue conv id name s' r fs in
          (match f with Refused => made | Queued _ => o :: made end, first_stage o f :: l)
      end
  end.
(** [partition_result]: the Ok values and the errors. *)
Fixpoint partition_result {A} (l : list (outcome A)) : list A * list nerr :=
  match l with
  | [] => ([], [])
  | Ok a :: r => let (x, y) := partition_result r in (a :: x, y)
  | Err e :: r => let (x, y) := partition_result r in (x, e :: y)
  | Panic :: r => partition_result r
  end.
(** [join_all] is ready once all its futures are. *)
Fixpoint join_all {A} (l : list (option A)) : option (list A) :=
  match l with
  | [] => Some []
  | None :: _ => None
  | Some a :: r => match join_all r with Some x => Some (a :: x) | None => None end
  end.
Definition many {A} (conv : A -> option call) (id : N) (name : bytes) (s : counters) (items : list A) (fates : list fate) :
  list outbound * option (outcome unit) :=
  let (made, firsts) := issue conv id name s items fates in
  let (receipts, _errors) := partition_result firsts in
  (made, match join_all receipts with
         | Some _ => Some (Ok tt)          (* the receipts are not looked at *)
         | None => None
         end).
(** src/producer.rs:72-93, [send_all]. *)
Definition send_all {T} (ser : T -> option bytes) := many (fun m => match ser m with Some d => Some (CSend d) | None => None end).
(** src/consumer.rs:197-211, [ack_all]. *)
Definition ack_all := many (fun mid => Some (CAck mid)).
