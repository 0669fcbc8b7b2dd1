(** Vocabulary for C79: calls of send_all and ack_all, as the log shows them. *)
From Verif Require Import Bytes Errors Wire Proto Address Message Client Producer Engine SpecEngine.
Open Scope N_scope.

(** What request [n] has come to: a response, ChannelTerminated, or nothing yet. *)
Fixpoint came_to (l : list obs) (n : nat) : option reply :=
  match l with
  | [] => None
  | OAnswer m _ i :: r => if (m =? n)%nat then Some (Resolved i) else came_to r n
  | OCancel m :: r => if (m =? n)%nat then Some Cancelled else came_to r n
  | _ :: r => came_to r n
  end.
(** The fates of the requests numbered [ns], none of which was refused. *)
Definition fates (l : list obs) (ns : list nat) : list fate := map (fun n => Queued (came_to l n)) ns.
(** Client [c] has made the requests [os] under the numbers [ns], which are increasing in
    the order of its calls; other requests may lie between them. *)
Inductive part {A} : list A -> list A -> Prop :=
| part_nil l : part [] l
| part_take x a b : part a b -> part (x :: a) (x :: b)
| part_skip x a b : part a b -> part a (x :: b).
Definition made_as (c : nat) (l : list obs) (ns : list nat) (os : list outbound) : Prop :=
  part ns (issued c l) /\ Forall2 (fun n o => In (OIssue c n o) l) ns os.
(** The requests of send_all and ack_all, numbered from [q]. *)
Fixpoint sends_from (name : bytes) (id q : N) (datas : list bytes) : list outbound :=
  match datas with [] => [] | d :: r => OSend (SSingle name id q d) :: sends_from name id ((q + 1) mod 2 ^ 64) r end.
Fixpoint acks_from (id q : N) (mids : list message) : list outbound :=
  match mids with [] => [] | m :: r => OAck [mk_ack id m q] :: acks_from id ((q + 1) mod 2 ^ 64) r end.
(** The messages that can be serialised. *)
Definition serialised {T} (ser : T -> option bytes) (ms : list T) : list bytes :=
  flat_map (fun m => match ser m with Some d => [d] | None => [] end) ms.
