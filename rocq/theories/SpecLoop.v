(** Vocabulary for C78: programs that wait for one request before making the next. *)
From Verif Require Import Bytes Errors Wire Proto Codec SpecCodec Address Message SpecMessage Client Consumer Engine SpecEngine SpecStack.
Open Scope N_scope.

(** The requests of client [c] satisfying [f], with their numbers, in order. *)
Definition picks (c : nat) (f : outbound -> bool) (l : list obs) : list (nat * outbound) :=
  flat_map (fun x => match x with OIssue c' n o => if (c' =? c)%nat && f o then [(n, o)] else [] | _ => [] end) l.
(** Whenever client [c] makes a request satisfying [f], its earlier ones have completed. *)
Definition one_by_one (c : nat) (f : outbound -> bool) (l : list obs) : Prop :=
  forall l1 n o l2, l = l1 ++ OIssue c n o :: l2 -> f o = true ->
    forall m o', In (OIssue c m o') l1 -> f o' = true -> exists ser i, In (OAnswer m ser i) l1.
(** How many of them have completed with a response. *)
Definition answered (l : list obs) (n : nat) : bool := existsb (fun x => match x with OAnswer m _ _ => (m =? n)%nat | _ => false end) l.
Definition completed (c : nat) (f : outbound -> bool) (l : list obs) : nat := length (filter (fun p => answered l (fst p)) (picks c f l)).

(** Acknowledgements of consumer [id], as requests and as commands. *)
Definition ack_of (id : N) (o : outbound) : bool := match o with OAck (a :: _) => ak_cid a =? id | _ => false end.
Definition ack_by (id : N) (mc : msg_cmd) : bool :=
  match get_z 1 (mc_cmd mc), get_m 10 (mc_cmd mc) with
  | Some 10%Z, Some s => match get_z 1 s with Some z => (z =? Z.of_N id)%Z | None => false end
  | _, _ => false
  end.
(** The message ids acknowledged by requests, in order. *)
Definition acked (os : list outbound) : list message := flat_map (fun o => match o with OAck l => map ak_mid l | _ => [] end) os.
(** Command [mc] is consumer [id]'s individual acknowledgement of message [m] alone. *)
Definition acknowledges {T} (id : N) (m : cmsg T) (mc : msg_cmd) : Prop :=
  exists ack, carries mc 10 10 ack /\ int_field 1 ack id /\ int_field 2 ack 0 /\ get_ms 3 ack = [cm_ack m].
