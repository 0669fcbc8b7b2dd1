(** Vocabulary for C80: the permits a broker has read, the permits a consumer has asked
    for, and how reading messages makes permits good. *)
From Verif Require Import Bytes Errors Wire Proto Codec Address Message SpecMessage Client Consumer SpecConsumer Engine SpecEngine SpecEngine2 SpecStack.
Open Scope N_scope.

(** The permits a command grants consumer [id]: those of its flow commands
    (pulsar.proto: BaseCommand.flow, CommandFlow.messagePermits). *)
Definition permits_in (id : N) (mc : msg_cmd) : list N :=
  match get_z 1 (mc_cmd mc), get_m 11 (mc_cmd mc) with
  | Some 11%Z, Some s => match get_z 1 s, get_z 2 s with Some z, Some n => if (z =? Z.of_N id)%Z then [Z.to_N n] else [] | _, _ => [] end
  | _, _ => []
  end.
Definition permits_read (id : N) (mcs : list msg_cmd) : list N := flat_map (permits_in id) mcs.
(** The permits requests ask for. *)
Definition permits_asked (id : N) (os : list outbound) : list N := flat_map (fun o => match o with OFlow cid n => if cid =? id then [n] else [] | _ => [] end) os.
(** The entries connection [a] was sent for consumer [id] in a schedule, and the
    messages in them. *)
Definition entries_for (id : N) (a : baddr) (h : list event) : list delivery := messages_for id (events (nets a h)).
Definition size_of (ds : list delivery) : N := total (map messages_of ds).

(** How an application reads: with next_message, or with next_batch for at most [n] messages. *)
Inductive reading := ByMessage | ByBatch (n : N).
Definition reads_by (m : reading) (h : list cev) : Prop :=
  match m with
  | ByMessage => only_next_message h
  | ByBatch n => forall t k, In (Start t k) h -> exists j, k = NextBatch j /\ N.of_nat j <= n
  end.
(** The permits reading an entry makes good: one per entry, and what next_batch returns
    of it; none if it does not decode. *)
Definition made_good {T} (value : bytes -> option T) (m : reading) (d : delivery) : N :=
  match unpack value d with
  | Ok _ => match m with ByMessage => 1 | ByBatch n => N.min n (messages_of d) end
  | _ => 0
  end.
Definition all_made_good {T} (value : bytes -> option T) (m : reading) (ds : list delivery) : N := total (map (made_good value m) ds).

(** The consumer on client [c] along a schedule: [hc g] is what its calls have done by the
    end of [g]. The events that have arrived for it are the first ones the client has
    received or that wait in its channel; the flow requests of the client are the initial
    one and those of the consumer. *)
Definition consumes {T} (value : bytes -> option T) (m : reading) (P : N) (E : env) (c : nat) (id : N) (h : list event) (hc : list event -> list cev) : Prop :=
  forall g1 g2 s, h = g1 ++ g2 -> reach E g1 s ->
    exists cs, reaches value P (hc g1) cs /\ reads_by m (hc g1) /\
      initial (SpecConsumer.arrivals (hc g1)) (gots c (s_log s) ++ (if ch_client (s_ch s c) then ch_down (s_ch s c) else [])) /\
      initial (permits_asked id (requests c (s_log s))) (2 * P :: grants (c_log cs)).
(** From [h1] on, the broker sends an entry for consumer [id] on connection [a] only while
    it has sent fewer messages than the permits it has read. *)
Definition keeps_to_permits (id : N) (a : baddr) (got : list event -> baddr -> list msg_cmd) (h1 h2 : list event) : Prop :=
  forall g1 f d g2, h2 = g1 ++ EvNet a (IFrame f) :: g2 -> to_inbound f = Ok (InMessage d) -> d_cid d = id ->
    size_of (entries_for id a (h1 ++ g1)) < total (permits_read id (got (h1 ++ g1) a)).
