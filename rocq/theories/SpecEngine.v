(** Vocabulary for statements about what the users of one Pulsar instance, its
    brokers and its authentication plugin observe: functions of the log only. *)
From Verif Require Import Bytes Errors Address Message SpecKeys Engine.
Open Scope N_scope.

(** The requests that have completed, in order, with a response or with
    ChannelTerminated. *)
Definition settled (l : list obs) : list nat :=
  flat_map (fun x => match x with OAnswer n _ _ => [n] | OCancel n => [n] | _ => [] end) l.
(** The requests the engine has taken, in order. *)
Definition takes (l : list obs) : list nat := flat_map (fun x => match x with OTake n => [n] | _ => [] end) l.
(** Request [n] of the log is [o]. *)
Definition requested (l : list obs) (n : nat) (o : outbound) : Prop := exists h, In (OIssue h n o) l.
(** Request [n] has been taken by the engine, waits for an answer under key [k],
    and has not completed. *)
Definition waiting_on (l : list obs) (n : nat) (k : bytes) : Prop :=
  exists o, requested l n o /\ asks o = true /\ okey o = Some k /\ In n (takes l) /\ ~ In n (settled l).
(** The kinds of request a response is expected for. *)
Definition expects (k : kind) : bool := match k with KFlow | KAuth => false | _ => true end.
(** Request [n] of kind [k] has been taken by the engine, expects a response and has
    not completed. *)
Definition in_flight (l : list obs) (n : nat) (k : kind) : Prop :=
  exists o, requested l n o /\ kind_of o = Some k /\ expects k = true /\ In n (takes l) /\ ~ In n (settled l).
(** The events that have completed a request. *)
Definition answering (l : list obs) : list nat := flat_map (fun x => match x with OAnswer _ ser _ => [ser] | _ => [] end) l.
(** The events the engine has taken from its connections, by number. *)
Definition handled (l : list obs) : list nat := flat_map (fun x => match x with OHandle _ ser _ => [ser] | _ => [] end) l.
(** The events that have arrived, by number. *)
Definition arrived (l : list obs) : list nat := flat_map (fun x => match x with OArrive _ ser _ => [ser] | _ => [] end) l.

(** What the requester sees of an event received over the connection to [a]: the
    event, except that a lookup answer still asks to go through the proxy only if
    the broker it names is not the one this connection is written as: its url, or
    "url -> proxy" for a connection through a proxy. *)
Definition written_as (a : baddr) : bytes := match a with Direct u => u | Proxy u p => u ++ str " -> " ++ p end.
Definition seen_as (a : baddr) (i j : inbound) : Prop :=
  match i with
  | InLookup r => exists r', j = InLookup r' /\ lr_rid r' = lr_rid r /\ lr_url r' = lr_url r /\ lr_url_tls r' = lr_url_tls r /\
      lr_type r' = lr_type r /\ lr_auth r' = lr_auth r /\ (lr_proxy r' = true <-> lr_proxy r = true /\ lr_url r <> written_as a)
  | _ => j = i
  end.

(** * One client as the log shows it *)
(** Its requests, its id and the broker it is assigned to (from its registration,
    then from its own connects), the messages the engine has taken for it from
    that broker's connection, and the messages it has received. *)
Record view := mk_view {
  v_mine : list nat; v_id : option N; v_home : option baddr; v_inbox : list delivery; v_got : list delivery }.
Definition in_nat (n : nat) (l : list nat) : bool := existsb (Nat.eqb n) l.
Definition same_home (x : option baddr) (a : baddr) : bool := match x with Some b => baddr_eqb b a | None => false end.
Definition same_id (x : option N) (i : N) : bool := match x with Some j => j =? i | None => false end.
Definition look_step (service : baddr) (h : nat) (v : view) (x : obs) : view :=
  match x with
  | OIssue h' n _ => if (h' =? h)%nat then mk_view (n :: v_mine v) (v_id v) (v_home v) (v_inbox v) (v_got v) else v
  | OReg h' id => if (h' =? h)%nat then mk_view (v_mine v) (Some id) (Some service) (v_inbox v) (v_got v) else v
  | OForward n a (OConnect _) => if in_nat n (v_mine v) then mk_view (v_mine v) (v_id v) (Some a) (v_inbox v) (v_got v) else v
  | OHandle a _ (InMessage d) =>
      if same_home (v_home v) a && same_id (v_id v) (d_cid d)
      then mk_view (v_mine v) (v_id v) (v_home v) (v_inbox v ++ [d]) (v_got v) else v
  | OGot h' (InMessage d) => if (h' =? h)%nat then mk_view (v_mine v) (v_id v) (v_home v) (v_inbox v) (v_got v ++ [d]) else v
  | _ => v
  end.
Definition look (service : baddr) (h : nat) (l : list obs) : view :=
  fold_left (look_step service h) l (mk_view [] None None [] []).

(** * One connection as the log shows it *)
(** The events that arrived on it and those the engine took from it, in order,
    apart from answers to connects. *)
Definition arrivals (a : baddr) (l : list obs) : list inbound :=
  flat_map (fun x => match x with OArrive b _ i => if baddr_eqb b a then match i with InConnected => [] | _ => [i] end else [] | _ => [] end) l.
Definition handles (a : baddr) (l : list obs) : list inbound :=
  flat_map (fun x => match x with OHandle b _ i => if baddr_eqb b a then match i with InConnected => [] | _ => [i] end else [] | _ => [] end) l.
(** The commands queued for it and those it took for writing, in order. *)
Definition queued (a : baddr) (l : list obs) : list (option nat * outbound) :=
  flat_map (fun x => match x with
                     | OForward n b o => if baddr_eqb b a then [(Some n, o)] else []
                     | OPonged b => if baddr_eqb b a then [(None, OPong)] else []
                     | _ => [] end) l.
Definition written (a : baddr) (l : list obs) : list (option nat * outbound) :=
  flat_map (fun x => match x with OWrite b n o _ => if baddr_eqb b a then [(n, o)] else [] | _ => [] end) l.
(** The commands queued for connection [a] that it has not taken for writing. *)
Definition unwritten (a : baddr) (l : list obs) : list (option nat * outbound) := skipn (length (written a l)) (queued a l).
(** The requests of a client, in the order of the calls; the requests forwarded, in order. *)
Definition issued (h : nat) (l : list obs) : list nat :=
  flat_map (fun x => match x with OIssue h' n _ => if (h' =? h)%nat then [n] else [] | _ => [] end) l.
Definition forwarded (l : list obs) : list nat := flat_map (fun x => match x with OForward n _ _ => [n] | _ => [] end) l.
(** [a] is an initial part of [b]. *)
Definition initial {A} (a b : list A) : Prop := exists rest, b = a ++ rest.
