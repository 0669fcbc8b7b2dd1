(** Specification for C18-C21: numbering of requests, and the handshakes. *)
From Verif Require Import Bytes Errors Address Message Client.
Open Scope N_scope.

(** The request number and the sequence number a request carries, if any. *)
Definition request_number (o : outbound) : option N :=
  match o with
  | OLookup rid _ => Some rid
  | OProducer _ _ rid _ => Some rid
  | OSubscribe _ _ _ rid _ => Some rid
  | OAck [a] => Some (ak_rid a)
  | _ => None
  end.
Definition sequence_number (o : outbound) : option N :=
  match o with OSend (SSingle _ _ q _) => Some q | OSend (SBatch _ _ q _) => Some q | _ => None end.
(** The numbers occurring in a list of requests, in order. *)
Definition numbers (f : outbound -> option N) (l : list outbound) : list N :=
  flat_map (fun o => match f o with Some n => [n] | None => [] end) l.
(** 0, 1, ..., n-1. *)
Definition upto (n : nat) : list N := map N.of_nat (seq 0 n).

Definition is_send (c : call) : bool := match c with CSend _ | CSendBatch _ => true | _ => false end.
(** No send is begun while another one has been numbered but not yet queued
    ([busy]: the task whose send is under way). Other calls may overlap freely. *)
Fixpoint sends_in_turn (busy : option nat) (h : list cl_ev) : Prop :=
  match h with
  | [] => True
  | Build t c :: r => if is_send c then busy = None /\ sends_in_turn (Some t) r else sends_in_turn busy r
  | Enqueue t :: r =>
      sends_in_turn (match busy with Some u => if (u =? t)%nat then None else busy | None => None end) r
  end.

(** * Handshakes
    A handshake is a list of requests, each with a verdict on its reply. *)
Definition step := (outbound * (reply -> outcome unit))%type.
(** Requests are made in order, the next one only after a good verdict; the first
    bad verdict ends the handshake and is its result. A request the closed
    channel refuses is not made. *)
Fixpoint walk (steps : list step) (rs : list reply) : list outbound * option (outcome unit) :=
  match steps, rs with
  | [], _ => ([], Some (Ok tt))
  | (o, _) :: _, [] => ([o], None)
  | (o, verdict) :: more, r :: rs' =>
      let (made, result) := match verdict r with Ok _ => walk more rs' | bad => ([], Some bad) end in
      (match r with NotQueued => made | _ => o :: made end, result)
  end.

(** Replies to one request: the expected event, another event, or a lost engine. *)
Definition expect (good : inbound -> option (outcome unit)) (r : reply) : outcome unit :=
  match r with
  | Resolved i => match good i with Some v => v | None => Err Unresolvable end
  | Cancelled | NotQueued => Err ChannelTerminated
  end.
Definition connected := expect (fun i => match i with InConnected => Some (Ok tt) | _ => None end).
Definition subscribed := expect (fun i => match i with InSuccess _ => Some (Ok tt) | _ => None end).
Definition producer_ready := expect (fun i => match i with InProducerSuccess _ _ => Some (Ok tt) | _ => None end).
(** The first lookup must say Connect. *)
Definition lookup_connect := expect (fun i =>
  match i with
  | InLookup r => Some (match lr_type r with LConnect => Ok tt | LFailed => Err ConnectionFailed | LRedirect => Panic end)
  | _ => None
  end).
(** Of the second lookup only the kind of the reply is examined. *)
Definition lookup_any := expect (fun i => match i with InLookup _ => Some (Ok tt) | _ => None end).
Definition queued (r : reply) : outcome unit := match r with NotQueued => Err ChannelTerminated | _ => Ok tt end.

Definition plain_connect := OConnect (mk_connect None None None).
Definition proxy_connect target := OConnect (mk_connect None None (Some (Proxy [] target))).

(** Connecting and finding the broker: directly, or behind the proxy. *)
Definition direct_steps (topic : bytes) : list step :=
  [(plain_connect, connected); (OLookup 0 topic, lookup_connect)].
Definition proxied_steps (topic target : bytes) : list step :=
  [(plain_connect, connected); (OLookup 0 topic, lookup_connect);
   (proxy_connect target, connected); (OLookup 1 topic, lookup_any)].
Definition subscribe_steps (id : N) (topic sub : bytes) (permits rid : N) : list step :=
  [(OSubscribe topic sub id rid Shared, subscribed); (OFlow id (2 * permits), queued)].
Definition producer_steps (id : N) (name topic : bytes) (rid : N) : list step :=
  [(OProducer topic id rid (Some name), producer_ready)].

(** The broker's answer to the first lookup asks for a proxied connection to [target]. *)
Definition asks_proxy (rs : list reply) : option bytes :=
  match rs with
  | _ :: Resolved (InLookup r) :: _ => if lr_proxy r then Some (lr_url r) else None
  | _ => None
  end.
