(** Model of [consume] and of the plugin interface of src/consumer.rs:258-302.

    What plugins do is not modelled: [beh r i] is what the i-th plugin makes of the
    r-th message ([None]: it has not come back yet). Since it may depend on
    everything, it covers stateful plugins and plugins that use the consumer. *)
From Verif Require Import Bytes Errors Wire Proto Message Consumer.

(** src/consumer.rs:283-302, the methods of [ConsumerPlugin]. *)
Inductive pcall (M : Type) := OnConnect (i : nat) | OnDisconnect (i : nat) | OnMessage (i : nat) (m : M).
Arguments OnConnect {M}. Arguments OnDisconnect {M}. Arguments OnMessage {M}.

(** src/consumer.rs:274-276: the plugins [i], [i+1], ... ([k] of them) in turn. *)
Fixpoint dispatch {M} (beh : nat -> option (outcome unit)) (m : M) (i k : nat) : list (pcall M) * option (outcome unit) :=
  match k with
  | O => ([], Some (Ok tt))
  | S k' =>
      match beh i with
      | Some (Ok _) => let (l, r) := dispatch beh m (S i) k' in (OnMessage i m :: l, r)
      | bad => ([OnMessage i m], bad)
      end
  end.
(** src/consumer.rs:270-279: [nexts] are the results of its next_message calls, in
    order; the loop asks for the next one only after all plugins are done. Returns
    the plugin calls made, the number of results used, and the result of
    [consume] ([None]: still running). *)
Fixpoint consume {M} (plugins : nat) (beh : nat -> nat -> option (outcome unit)) (round : nat) (nexts : list (outcome M)) :
  list (pcall M) * nat * option (outcome unit) :=
  match nexts with
  | [] => ([], 0%nat, None)
  | Err e :: _ => ([], 1%nat, Some (Err e))
  | Panic :: _ => ([], 1%nat, Some Panic)
  | Ok m :: rest =>
      match dispatch (beh round) m 0 plugins with
      | (l, Some (Ok _)) => match consume plugins beh (S round) rest with (l', n, r) => (l ++ l', S n, r) end
      | (l, r) => (l, 1%nat, r)
      end
  end.

(** The results of task [t]'s next_message calls in a run of the consumer. *)
Definition nexts_of {T} (t : nat) (log : list (cobs T)) : list (outcome (cmsg T)) :=
  flat_map (fun o => match o with
    | Returned u NextMessage r => if (u =? t)%nat then [obind r (fun ms => match ms with [m] => Ok m | _ => Panic end)] else []
    | _ => [] end) log.
