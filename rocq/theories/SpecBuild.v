(** Vocabulary for C84: programs of a client, run through the engine. *)
From Verif Require Import Bytes Errors Address Message Client SpecKeys Engine SpecEngine SpecEngine2 SpecStack SpecLoop.
Open Scope N_scope.

(** Whether a call waits for a response. *)
Definition waits (o : outbound) : bool := match kind_of o with Some k => expects k | None => false end.
(** What request [n] has completed with, if it has. *)
Fixpoint outcome_of (n : nat) (l : list obs) : option reply :=
  match l with
  | [] => None
  | OAnswer m _ i :: r => if (m =? n)%nat then Some (Resolved i) else outcome_of n r
  | OCancel m :: r => if (m =? n)%nat then Some Cancelled else outcome_of n r
  | _ :: r => outcome_of n r
  end.
(** The replies client [c] has had to its requests, in order, up to the first request
    that still waits. (A request that does not wait returns when it has been queued;
    nothing is made of its reply.) *)
Fixpoint replies_to (l : list obs) (ps : list (nat * outbound)) : list reply :=
  match ps with
  | [] => []
  | (n, o) :: r =>
      if waits o then match outcome_of n l with Some x => x :: replies_to l r | None => [] end
      else Resolved InPong :: replies_to l r
  end.
Definition replies (c : nat) (l : list obs) : list reply := replies_to l (picks c (fun _ => true) l).
(** Client [c] runs program [p]: it has made the requests [p] makes on the replies it has had. *)
Definition running (c : nat) (p : prog) (l : list obs) : Prop := requests c l = fst (exec p (replies c l)).
(** Every command that has been written has been answered since, on the same connection. *)
Definition all_answered (l : list obs) : Prop :=
  forall l1 a n o ok l2 k, l = l1 ++ OWrite a (Some n) o ok :: l2 -> kind_of o = Some k -> expects k = true ->
    exists ser i, In (OArrive a ser i) l2 /\ answers i k.
(** Every connection that has been made is still there. *)
Definition none_lost (s : sys) : Prop := forall a, In (ODial a true) (s_log s) -> exists k, get_conn a (s_conns s) = Some k /\ k_alive k = true.
