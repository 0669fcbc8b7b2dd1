(** Vocabulary for C77: which requests a command carries, brokers that answer what they
    have read. *)
From Verif Require Import Bytes Errors Wire Proto Codec SpecCodec Address Message SpecMessage Client SpecKeys Engine SpecEngine SpecEngine2 Sink SpecStack.
Open Scope N_scope.

(** The kind of request a command carries, by its type and, for a send, its sequence
    number (pulsar.proto: BaseCommand.type, CommandSend.sequence_id). *)
Definition command_kind (mc : msg_cmd) : option kind :=
  match get_z 1 (mc_cmd mc) with
  | Some 2%Z => Some KConnect
  | Some 4%Z => Some KSubscribe
  | Some 5%Z => Some KProducer
  | Some 6%Z => match get_m 6 (mc_cmd mc) with
                | Some s => match get_z 2 s with Some z => Some (KSend (Z.to_N z)) | None => None end
                | None => None end
  | Some 10%Z => Some KAck
  | Some 11%Z => Some KFlow
  | Some 23%Z => Some KLookup
  | Some 36%Z => Some KAuth
  | _ => None
  end.
Definition kind_eqb (k k' : kind) : bool :=
  match k, k' with
  | KConnect, KConnect | KAck, KAck | KLookup, KLookup | KSubscribe, KSubscribe | KAuth, KAuth | KFlow, KFlow | KProducer, KProducer => true
  | KSend a, KSend b => a =? b
  | _, _ => false
  end.
Definition is_kind (k : kind) (x : option kind) : bool := match x with Some k' => kind_eqb k' k | None => false end.
Definition answersb (k : kind) (i : inbound) : bool :=
  match i, k with
  | InConnected, KConnect => true
  | InReceipt _ seq _, KSend seq' => seq =? seq'
  | InAckReceipt _ _, KAck => true
  | InLookup _, KLookup => true
  | InSuccess _, KSubscribe => true
  | InProducerSuccess _ _, KProducer => true
  | InAuthChallenge, KAuth => true
  | _, _ => false
  end.
(** What the brokers have read by each moment of a schedule: on each connection an
    initial part of the bytes on its wire, and never less than before. *)
Definition read_along (E : env) (io : baddr -> nat -> io_plan) (h : list event) (got : list event -> baddr -> list msg_cmd) : Prop :=
  forall g1 g2, h = g1 ++ g2 -> forall a,
    (exists reads, initial (concat reads) (wire E a (io a) g1) /\ stream_items reads false = map IFrame (got g1 a)) /\ initial (got g1 a) (got h a).
(** The events among the items of a stream: frames of a known type that convert. *)
Definition inbounds (l : list item) : list inbound :=
  flat_map (fun x => match x with IFrame mc => match to_inbound mc with Ok i => [i] | _ => [] end | _ => [] end) l.
(** On no connection have more answers of kind [k] arrived than commands of that kind
    have been read there: a broker answers only what it has read, once. *)
Definition answers_reads (k : kind) (h : list event) (got : list event -> baddr -> list msg_cmd) : Prop :=
  forall g1 g2, h = g1 ++ g2 -> forall a,
    (length (filter (answersb k) (inbounds (nets a g1))) <= length (filter (fun mc => is_kind k (command_kind mc)) (got g1 a)))%nat.
(** No request of kind [k] is taken while another one of that kind is in flight. *)
Definition no_collision_of (k : kind) (l : list obs) : Prop :=
  forall l1 n l2 m o, l = l1 ++ OTake n :: l2 -> requested l1 n o -> kind_of o = Some k -> ~ in_flight l1 m k.
