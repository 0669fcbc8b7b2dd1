(** Vocabulary for C87: several calls of one client under way at once. *)
From Verif Require Import Bytes Errors Address Message SpecKeys SpecMessage Client Engine SpecEngine SpecEngine2 SpecStack SpecBuild SpecServe.
Open Scope N_scope.

(** No two of the requests that wait for a response are of the same kind. (Sends with
    different sequence numbers are of different kinds; two acknowledgements are of one.) *)
Definition distinct (os : list outbound) : Prop := NoDup (map kind_of (filter waits os)).
(** Request [n] is [o] and has completed with an answer of its kind, one of those brokers
    are willing to give, as the engine passes it on. *)
Definition well_answered (will : inbound -> Prop) (l : list obs) (n : nat) (o : outbound) : Prop :=
  exists k a i j, kind_of o = Some k /\ will i /\ seen_as a i j /\ answers j k /\ outcome_of n l = Some (Resolved j).
(** The application holds client [c], which has been registered under [id]. *)
Definition held (c : nat) (id : N) (s : sys) : Prop :=
  In (c, id) (registered (s_log s)) /\ ch_client (s_ch s c) = true /\ ch_use (s_ch s c) = true.
(** Client [c] makes all these calls before anything else happens. *)
Definition at_once (c : nat) (os : list outbound) : list event := map (EvIssue c) os.
