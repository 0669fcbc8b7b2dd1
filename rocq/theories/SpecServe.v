(** Vocabulary for C86: a program of calls run on a live instance. *)
From Verif Require Import Bytes Errors Address Codec Message SpecKeys SpecCodec SpecMessage Client Engine SpecEngine SpecEngine2 SpecEnd SpecStack SpecBuild SpecFinish.
Open Scope N_scope.

(** As [helped]; and client [c] makes the requests of program [p], each when [p] makes it:
    on the replies it has had to those before. Other users do nothing but wait. *)
Inductive served (E : env) (will : inbound -> Prop) (c : nat) (p : prog) : sys -> list event -> sys -> Prop :=
| served_done s : served E will c p s [] s
| served_task s e s1 h s2 : well e -> step E s e = Some s1 -> served E will c p s1 h s2 -> served E will c p s (e :: h) s2
| served_answer s a mc i s1 h s2 : sendable mc -> to_inbound mc = Ok i -> will i -> owed (s_log s) a i -> step E s (EvNet a (IFrame mc)) = Some s1 ->
    served E will c p s1 h s2 -> served E will c p s (EvNet a (IFrame mc) :: h) s2
| served_call s o s1 h s2 : fst (exec p (replies c (s_log s))) = requests c (s_log s) ++ [o] -> step E s (EvIssue c o) = Some s1 ->
    served E will c p s1 h s2 -> served E will c p s (EvIssue c o :: h) s2.
(** The application holds client [c], whose id is [id], and it has not used it. *)
Definition unused (c : nat) (id : N) (s : sys) : Prop :=
  In (c, id) (registered (s_log s)) /\ ch_client (s_ch s c) = true /\ ch_use (s_ch s c) = true /\ requests c (s_log s) = [].
(** A request of sensible size that client [id] can make. *)
Definition reasonable (id : N) (o : outbound) : Prop := api_request id o = true /\ req_ok o /\ req_weight o < 2 ^ 29.
(** What program [p] makes of the answers brokers are willing to give (as the engine passes
    them on): it makes reasonable requests only and returns a result satisfying [Q]. *)
Fixpoint yields (id : N) (will : inbound -> Prop) (p : prog) (Q : outcome unit -> Prop) : Prop :=
  match p with
  | Done r => Q r
  | Ask o k => reasonable id o /\ waits o = true /\
      forall a i j kd, kind_of o = Some kd -> will i -> seen_as a i j -> answers j kd -> yields id will (k (ask_result o (Resolved j))) Q
  | Post o k => reasonable id o /\ waits o = false /\ yields id will (k (Ok tt)) Q
  end.
(** All that has arrived are answers of those that brokers are willing to give. *)
Definition all_willing (will : inbound -> Prop) (l : list obs) : Prop := forall a ser i, In (OArrive a ser i) l -> will i.
(** First [p]; then, if it returns Ok, [q]. *)
Fixpoint and_then (p q : prog) : prog :=
  match p with
  | Done (Ok _) => q
  | Done r => Done r
  | Ask o k => Ask o (fun x => and_then (k x) q)
  | Post o k => Post o (fun x => and_then (k x) q)
  end.
(** src/producer.rs:63-70: sending one message after the other, each when the receipt of the
    one before has come; the first failure ends it. *)
Fixpoint send_each (id : N) (name : bytes) (s : counters) (ds : list bytes) : prog :=
  match ds with [] => Done (Ok tt) | d :: r => ask id name s (CSend d) (fun s1 _ => send_each id name s1 r) end.
(** Building a producer and sending [ds] with it. (A send takes its number from the sequence
    counter only, which building leaves at zero.) *)
Definition produce (id : N) (name topic : bytes) (ds : list bytes) : prog :=
  and_then (producer_connect id name topic Client.fresh) (send_each id name Client.fresh ds).
