(** Vocabulary for C89: programs of several clients, each somewhere on its way. *)
From Verif Require Import Bytes Errors Address Codec Message SpecKeys SpecCodec SpecMessage Client Engine SpecEngine SpecEngine2 SpecEnd SpecStack SpecBuild SpecFinish SpecServe.
Open Scope N_scope.

(** A job: a client, its id and the program it runs. As [helped]; and the clients of these
    jobs make the requests of their programs, each when its program makes it: on the
    replies the client has had. Users do nothing else. *)
Inductive worked (E : env) (will : inbound -> Prop) (jobs : list (nat * N * prog)) : sys -> list event -> sys -> Prop :=
| worked_done s : worked E will jobs s [] s
| worked_task s e s1 h s2 : well e -> step E s e = Some s1 -> worked E will jobs s1 h s2 -> worked E will jobs s (e :: h) s2
| worked_answer s a mc i s1 h s2 : sendable mc -> to_inbound mc = Ok i -> will i -> owed (s_log s) a i -> step E s (EvNet a (IFrame mc)) = Some s1 ->
    worked E will jobs s1 h s2 -> worked E will jobs s (EvNet a (IFrame mc) :: h) s2
| worked_call s c id p o s1 h s2 : In (c, id, p) jobs -> fst (exec p (replies c (s_log s))) = requests c (s_log s) ++ [o] -> step E s (EvIssue c o) = Some s1 ->
    worked E will jobs s1 h s2 -> worked E will jobs s (EvIssue c o :: h) s2.
(** Client [c] is somewhere in program [p]: it has made the requests [p] makes on the
    replies it has had, but for the last, perhaps, which it is about to make. *)
Definition partway (c : nat) (p : prog) (l : list obs) : Prop :=
  running c p l \/ exists o, fst (exec p (replies c l)) = requests c l ++ [o].
(** What a request may get: an answer of its kind of those brokers are willing to give, as
    the engine passes it on, or, superseded by another client's, none. *)
Definition may_get (will : inbound -> Prop) (o : outbound) (r : reply) : Prop :=
  r = Cancelled \/ exists a i j k, kind_of o = Some k /\ will i /\ seen_as a i j /\ answers j k /\ r = Resolved j.
(** A program that makes reasonable requests only, whatever it gets. *)
Fixpoint modest (id : N) (will : inbound -> Prop) (p : prog) : Prop :=
  match p with
  | Done _ => True
  | Ask o k => reasonable id o /\ waits o = true /\ forall r, may_get will o r -> modest id will (k (ask_result o r))
  | Post o k => reasonable id o /\ waits o = false /\ modest id will (k (Ok tt))
  end.
(** The clients of these jobs are different ones. *)
Definition one_each (jobs : list (nat * N * prog)) : Prop := NoDup (map (fun x => fst (fst x)) jobs).
(** What users run: a consumer is built; a producer is built and sends messages one by one. *)
Inductive ordinary (id : N) : prog -> Prop :=
| a_consumer name topic sub permits : id < 2 ^ 64 -> string_ok topic -> blen topic < 2 ^ 28 -> string_ok sub -> blen sub < 2 ^ 28 -> permits * 2 < 2 ^ 32 ->
    ordinary id (consumer_connect id name topic sub permits Client.fresh)
| a_producer name topic ds : id < 2 ^ 64 -> string_ok topic -> blen topic < 2 ^ 28 -> string_ok name -> blen name < 2 ^ 28 -> (forall d, In d ds -> blen d < 2 ^ 28) ->
    ordinary id (produce id name topic ds).
