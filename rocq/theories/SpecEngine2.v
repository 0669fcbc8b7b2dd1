(** More vocabulary over the log: message streams, writes, registrations. *)
From Verif Require Import Bytes Errors Address Message SpecKeys Engine SpecEngine.
Open Scope N_scope.

(** The messages among events, and those for consumer id [id], in order. *)
Definition messages (l : list inbound) : list delivery := flat_map (fun i => match i with InMessage d => [d] | _ => [] end) l.
Definition messages_for (id : N) (l : list inbound) : list delivery :=
  flat_map (fun i => match i with InMessage d => if d_cid d =? id then [d] else [] | _ => [] end) l.
(** From the end of [l1] to the end of [l] client [h] has id [id] and is assigned to broker [a]. *)
Definition stays (service : baddr) (h : nat) (a : baddr) (id : N) (l1 l : list obs) : Prop :=
  forall l', initial l1 l' -> initial l' l -> v_home (look service h l') = Some a /\ v_id (look service h l') = Some id.
(** The requests queued for connection [a] and those it took for writing, in order. *)
Definition sent_to (a : baddr) (l : list obs) : list nat :=
  flat_map (fun x => match x with OForward n b _ => if baddr_eqb b a then [n] else [] | _ => [] end) l.
Definition wrote (a : baddr) (l : list obs) : list nat :=
  flat_map (fun x => match x with OWrite b (Some n) _ _ => if baddr_eqb b a then [n] else [] | _ => [] end) l.
(** Those of client [h]. *)
Definition wrote_for (h : nat) (a : baddr) (l : list obs) : list nat := filter (fun n => in_nat n (issued h l)) (wrote a l).
(** The pings taken from connection [a], the pongs queued for it, the pongs it took for writing. *)
Definition pings (a : baddr) (l : list obs) : nat :=
  length (filter (fun x => match x with OHandle b _ InPing => baddr_eqb b a | _ => false end) l).
Definition pongs (a : baddr) (l : list obs) : nat :=
  length (filter (fun x => match x with OPonged b => baddr_eqb b a | _ => false end) l).
Definition pong_writes (a : baddr) (l : list obs) : nat :=
  length (filter (fun x => match x with OWrite b None OPong _ => baddr_eqb b a | _ => false end) l).
(** The registrations the engine has taken, in order; the confirmations. *)
Definition registered (l : list obs) : list (nat * N) := flat_map (fun x => match x with OReg h id => [(h, id)] | _ => [] end) l.
Definition confirmed (l : list obs) : list nat := flat_map (fun x => match x with OConfirm h => [h] | _ => [] end) l.
