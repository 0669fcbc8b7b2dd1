(** Coming to rest: what the tasks of this library do by themselves, when no user calls
    anything and nothing arrives. *)
From Verif Require Import Bytes Errors Address Message Client Engine SpecEngine SpecEngine2 SpecTurn.
Open Scope N_scope.

(** The steps of the engine task and of the connections' tasks. The calls they make - a
    dial, the authentication plugin, a write - end in one of the ways they can end; what
    is left out is what comes from outside: the users' calls and the network's input. *)
Definition task_event (e : event) : bool := engine_event e || match e with EvWrite _ _ _ => true | _ => false end.
(** What there is to do: requests queued by clients (a connect may need an answer of the
    plugin, a dial, a write and an answer), registrations, events and commands queued on
    connections, connections whose task has not ended, the call the engine is in. *)
Definition sum (l : list nat) : nat := fold_right Nat.add 0%nat l.
Definition conn_work (k : conn) : nat := (2 * length (k_n2e k) + length (k_e2n k) + if k_alive k then 1 else 0)%nat.
Definition phase_work (p : phase) : nat :=
  match p with PStart => 3 | PRun => 1 | PAuth _ _ _ => 6 | PDial _ _ _ => 5 | PConn _ _ _ => 2 | PStop => 0 end%nat.
Definition pending (s : sys) : nat :=
  (6 * sum (map (fun c => length (ch_up (s_ch s c))) (seq 0 (s_nh s))) + length (s_regq s) +
   sum (map (fun x => conn_work (snd x)) (s_conns s)) + phase_work (s_phase s))%nat.
(** No task can do anything, in the order in which the engine polls, that changes the
    state. *)
Definition at_rest (E : env) (rank : nat -> baddr -> nat) (h : list event) (s : sys) : Prop :=
  forall e s', task_event e = true -> step E s e = Some s' -> as_polled E rank (h ++ [e]) -> s' = s.
(** A connection whose task has not ended. *)
Definition open_conn (s : sys) (a : baddr) : Prop := exists k, get_conn a (s_conns s) = Some k /\ k_alive k = true.
