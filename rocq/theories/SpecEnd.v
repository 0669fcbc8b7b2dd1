(** What ends the engine (C73): vocabulary. *)
From Verif Require Import Bytes Errors Wire Proto Codec Address Message Client Engine SpecEngine SpecEngine2.
Open Scope N_scope.

(** Event [e], happening in state [s], breaks the connection to [a]: its stream ends
    or panics, an incoming frame or an outgoing command makes the conversion panic. *)
Definition breaks (E : env) (s : sys) (a : baddr) (e : event) : Prop :=
  e = EvNet a IEnd \/ e = EvNet a IPanic \/
  (exists mc, e = EvNet a (IFrame mc) /\ to_inbound mc = Panic) \/
  (exists now io n o rest, e = EvWrite a now io /\ unwritten a (s_log s) = (n, o) :: rest /\ obind (to_cmd now o) (encode (e_oc E)) = Panic).
(** The connection to [a] has been broken in the course of [h]. *)
Definition broken (E : env) (h : list event) (a : baddr) : Prop :=
  exists h1 e h2 s1, h = h1 ++ e :: h2 /\ reach E h1 s1 /\ breaks E s1 a e.

(** Why event [e], after the history [h] with the log [l], ends the engine. *)
Inductive end_cause (E : env) (h : list event) (l : list obs) : event -> Prop :=
(* the first dial fails *)
| end_start : end_cause E h l (EvStart false)
(* a later dial fails *)
| end_dial : end_cause E h l (EvDial false)
(* the authentication plugin fails *)
| end_auth r : (forall d, r <> Ok d) -> end_cause E h l (EvAuth r)
(* a registered client is gone, and all it had queued has been taken *)
| end_left c id : In (c, id) (registered l) -> In (EvDropClient c) h \/ In (EvCancelReg c) h ->
    (forall n o, In (OIssue c n o) l -> In n (takes l)) -> end_cause E h l (EvClient c)
(* the manager is gone and no client was ever registered *)
| end_unused : In EvDropManager h -> registered l = [] -> end_cause E h l EvReg
(* the manager is gone after a registration has been cancelled *)
| end_cancelled c : In EvDropManager h -> In (EvCancelReg c) h -> end_cause E h l EvReg
(* a connection is broken, and the engine reads from it, waits for it or sends to it *)
| end_lost a e : broken E h a ->
    e = EvConn a \/ e = EvAnswered \/ (exists c, e = EvClient c) \/ (exists d, e = EvAuth (Ok d)) -> end_cause E h l e.

(** A dial or authentication that fails, a client, registration or manager that is given up. *)
Definition gives_up (e : event) : Prop :=
  match e with
  | EvStart false | EvDial false | EvDropClient _ | EvCancelReg _ | EvDropManager => True
  | EvAuth r => forall d, r <> Ok d
  | _ => False
  end.
