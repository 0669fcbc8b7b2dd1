(** Vocabulary for C85: what the library's tasks and well-behaved brokers can still do. *)
From Verif Require Import Bytes Errors Address Proto Codec Message SpecKeys SpecCodec SpecMessage Client Engine SpecEngine SpecEngine2 SpecEnd.
Open Scope N_scope.

(** Event [i] answers a command written on connection [a] that nothing has answered since. *)
Definition owed (l : list obs) (a : baddr) (i : inbound) : Prop :=
  exists l1 n o ok l2 k, l = l1 ++ OWrite a (Some n) o ok :: l2 /\ kind_of o = Some k /\ expects k = true /\ answers i k /\
    forall ser j, In (OArrive a ser j) l2 -> ~ answers j k.
(** A step of the engine's task or of a connection's in which no call fails. *)
Definition well (e : event) : Prop :=
  match e with
  | EvStart b | EvDial b => b = true
  | EvAuth r => exists d, r = Ok d
  | EvWrite _ _ ok => ok = true
  | EvClient _ | EvAnswered | EvConn _ | EvReg => True
  | _ => False
  end.
(** The tasks take steps, in which no call fails, and brokers answer what they have been
    sent, each time with a frame that can be sent (C01) and an answer of those they are
    willing to give. Users do nothing but wait. *)
Inductive helped (E : env) (will : inbound -> Prop) : sys -> list event -> sys -> Prop :=
| helped_done s : helped E will s [] s
| helped_task s e s1 h s2 : well e -> step E s e = Some s1 -> helped E will s1 h s2 -> helped E will s (e :: h) s2
| helped_answer s a mc i s1 h s2 : sendable mc -> to_inbound mc = Ok i -> will i -> owed (s_log s) a i -> step E s (EvNet a (IFrame mc)) = Some s1 ->
    helped E will s1 h s2 -> helped E will s (EvNet a (IFrame mc) :: h) s2.
(** The answers brokers are willing to give include one for each kind of request. *)
Definition some_answer (will : inbound -> Prop) : Prop :=
  forall k, expects k = true -> (forall seq, k = KSend seq -> u64 seq) -> exists mc i, sendable mc /\ to_inbound mc = Ok i /\ will i /\ answers i k.
(** Answers that tell a client where its topic is: lookups say Connect and name a broker,
    and the name is valid and of sensible length. *)
Definition found_topic (i : inbound) : Prop :=
  match i with InLookup r => lr_type r = LConnect /\ string_ok (lr_url r) /\ blen (lr_url r) < 2 ^ 28 | _ => True end.
(** Nothing has failed so far: no connection is broken, no stream is damaged, no dial
    or authentication has failed, and nobody has given up a client, a registration or
    the manager. *)
Definition unharmed (E : env) (h : list event) : Prop :=
  (forall a, ~ broken E h a) /\ (forall a e, ~ In (EvNet a (IErr e)) h) /\ (forall e, In e h -> ~ gives_up e).
(** The requests made and the credentials used so far are of sensible size. *)
Definition sensible (E : env) (l : list obs) : Prop :=
  (forall c n o, In (OIssue c n o) l -> req_ok o /\ req_weight o < 2 ^ 29) /\
  opt_ok string_ok (e_auth E) /\ (forall d, d = [] \/ (exists n, In (OAuthed n (Ok d)) l) -> blen d + opt_len (e_auth E) < 2 ^ 29).
