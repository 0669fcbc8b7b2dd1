(** In which order the engine serves clients and connections.

    [Engine.step] lets the engine take from any client and any connection that has
    something. The code restricts this: src/client_manager.rs:67-75 and
    src/connection_manager.rs:42-52 wait with [futures::future::select_all], which polls
    its futures in the order of the list each time and completes with the first that is
    ready; src/pulsar.rs:70-80 ([tokio::select!]) polls both, and the registrations, in
    random order. So a request of a client is taken only after every client before it
    in [clients] - those registered earlier - has been polled, since the engine last
    did something, and had nothing; likewise for connections in the iteration order of
    the [HashMap], which is arbitrary but changes only when a connection is added.
    Polling is not atomic: a client polled first may get a request before a later one
    is polled.

    Theorems about every schedule are proved for all schedules of [Engine.step]; those
    that say that something can happen say that it can happen in this order. *)
From Verif Require Import Bytes Errors Wire Proto Codec Address Message Client Engine SpecEngine SpecEngine2.
Open Scope N_scope.

(** What the engine task does. *)
Definition engine_event (e : event) : bool :=
  match e with EvStart _ | EvClient _ | EvAuth _ | EvDial _ | EvAnswered | EvConn _ | EvReg => true | _ => false end.
(** A client, or connection, for which [recv] is not ready: nothing is queued and the
    other end exists. *)
Definition idle_client (c : nat) (s : sys) : Prop := ch_up (s_ch s c) = [] /\ ch_client (s_ch s c) = true.
Definition idle_conn (a : baddr) (s : sys) : Prop := forall k, get_conn a (s_conns s) = Some k -> k_n2e k = [] /\ k_alive k = true.
(** [P] held at some moment since the engine last did something. *)
Definition found (E : env) (h : list event) (P : sys -> Prop) : Prop :=
  exists h1 h2 s, h = h1 ++ h2 /\ (forall e, In e h2 -> engine_event e = false) /\ reach E h1 s /\ P s.
(** The clients registered before [c]. *)
Fixpoint before (c : nat) (l : list nat) : list nat :=
  match l with [] => [] | d :: r => if (d =? c)%nat then [] else d :: before c r end.
Definition clients_before (c : nat) (l : list obs) : list nat := before c (map fst (registered l)).
(** [rank n a]: the place of connection [a] in the iteration order with [n] connections. *)
Definition as_polled (E : env) (rank : nat -> baddr -> nat) (h : list event) : Prop :=
  forall h1 e h2 s, h = h1 ++ e :: h2 -> reach E h1 s ->
  match e with
  | EvClient c => forall d, In d (clients_before c (s_log s)) -> found E h1 (idle_client d)
  | EvConn a => forall b, let n := length (s_conns s) in
      In b (map fst (s_conns s)) -> (rank n b < rank n a)%nat -> found E h1 (idle_conn b)
  | _ => True
  end.
(** The engine serves a client registered after [c]. *)
Definition serves_after (c : nat) (l : list obs) (e : event) : bool := match e with EvClient d => in_nat c (clients_before d l) | _ => false end.
(** The engine reads from a connection polled after [a]. *)
Definition reads_after (rank : baddr -> nat) (a : baddr) (e : event) : bool := match e with EvConn b => (rank a <? rank b)%nat | _ => false end.
(** A connection from which the engine can take something. *)
Definition busy_conn (s : sys) (a : baddr) : Prop := exists k, get_conn a (s_conns s) = Some k /\ ~ (k_n2e k = [] /\ k_alive k = true).
