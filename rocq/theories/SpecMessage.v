(** Specification vocabulary for C10-C17: which requests a Rust caller can build,
    what each one means on the wire in terms of the protocol's own field numbers
    (src/protos/pulsar.proto), and what a broker answer means. Uses only data
    types, the protobuf getters and UTF-8 validity. *)
From Verif Require Import Bytes Errors Utf8 Wire Proto Codec Address Message SpecProto.
Open Scope N_scope.

Definition u64 (n : N) : Prop := n < 2 ^ 64.
Definition u32 (n : N) : Prop := n < 2 ^ 32.
Definition string_ok (b : bytes) : Prop := utf8 b = true.
Definition opt_ok {A} (P : A -> Prop) (o : option A) : Prop := match o with Some a => P a | None => True end.

(** A message id: field values in range, ledger and entry present, nested at most
    as deep as one that arrived inside a command. *)
Definition mid_ok (mid : message) : Prop :=
  wt 98 M_MessageIdData mid = true /\ initialized M_MessageIdData mid = true.

(** The requests the Rust types allow. *)
Definition req_ok (o : outbound) : Prop :=
  match o with
  | OPing | OPong => True
  | OConnect c => opt_ok string_ok (cn_auth_method c) /\
      match cn_addr c with Some (Proxy _ p) => string_ok p | _ => True end
  | OSend (SSingle name pid seq _) => string_ok name /\ u64 pid /\ u64 seq
  | OSend (SBatch name pid seq _) => string_ok name /\ u64 pid /\ u64 seq
  | OAck acks => Forall (fun a => u64 (ak_cid a) /\ mid_ok (ak_mid a) /\ u64 (ak_rid a)) acks
  | OLookup rid topic => u64 rid /\ string_ok topic
  | OSubscribe topic s cid rid _ => string_ok topic /\ string_ok s /\ u64 cid /\ u64 rid
  | OAuth method _ => string_ok method
  | OFlow cid permits => u64 cid /\ u32 permits
  | OProducer topic pid rid name => string_ok topic /\ u64 pid /\ u64 rid /\ opt_ok string_ok name
  end.

Definition sum (l : list N) : N := fold_right N.add 0 l.
Definition opt_len (o : option bytes) : N := match o with Some b => blen b | None => 0 end.
(** How many bytes of caller data a request carries (with a generous constant per
    batch entry and per acknowledged id). *)
Definition req_weight (o : outbound) : N :=
  match o with
  | OConnect c => opt_len (cn_auth_data c) + opt_len (cn_auth_method c) +
      match cn_addr c with Some (Proxy _ p) => blen p | _ => 0 end
  | OSend (SSingle name _ _ d) => blen name + blen d
  | OSend (SBatch name _ _ ds) => blen name + sum (map (fun d => 64 + blen d) ds)
  | OAck acks => sum (map (fun a => 64 + blen (write_msg (ak_mid a))) acks)
  | OLookup _ topic => blen topic
  | OSubscribe topic s _ _ _ => blen topic + blen s
  | OAuth m d => blen m + blen d
  | OProducer topic _ _ name => blen topic + opt_len name
  | _ => 0
  end.

(** The command has type [ty] and carries exactly one sub-message, number [k]. *)
Definition carries (mc : msg_cmd) (ty : Z) (k : N) (s : message) : Prop :=
  get_z 1 (mc_cmd mc) = Some ty /\ get_m k (mc_cmd mc) = Some s /\
  forall j, j <> k -> get_m j (mc_cmd mc) = None.
Definition int_field (n : N) (s : message) (v : N) : Prop := get_z n s = Some (Z.of_N v).

(** One entry of a batch payload (Pulsar batch format): metadata size, metadata
    whose payload_size is the length of the data, data. *)
Definition batch_part (d : bytes) : bytes :=
  let md := write_msg [(3, PInt (Z.of_N (blen d)))] in
  [n2b (blen md / 16777216); n2b (blen md / 65536); n2b (blen md / 256); n2b (blen md)] ++ md ++ d.

(** What a request means on the wire. *)
Definition denotes (now : N) (o : outbound) (mc : msg_cmd) : Prop :=
  match o with
  | OPing => carries mc 18 18 [] /\ mc_payload mc = None
  | OPong => carries mc 19 19 [] /\ mc_payload mc = None
  | OConnect c => mc_payload mc = None /\ exists s, carries mc 2 2 s /\
      get_b 1 s = Some (str "2.0.0-incubating") /\ int_field 4 s 21 /\
      get_b 3 s = cn_auth_data c /\
      get_b 5 s = match cn_auth_data c, cn_auth_method c with
                  | None, _ => None | Some _, Some m => Some m | Some _, None => Some (str "none") end /\
      get_b 6 s = match cn_addr c with
                  | Some (Proxy u p) => Some (trim_start_matches (str "pulsar://") p) | _ => None end
  | OSend r => exists s p, carries mc 6 6 s /\ mc_payload mc = Some p /\
      match r with
      | SSingle name pid seq data =>
          int_field 1 s pid /\ int_field 2 s seq /\ int_field 3 s 1 /\
          get_b 1 (pl_meta p) = Some name /\ int_field 2 (pl_meta p) seq /\
          int_field 3 (pl_meta p) now /\ int_field 12 (pl_meta p) now /\ int_field 11 (pl_meta p) 1 /\
          pl_data p = data
      | SBatch name pid seq datas =>
          int_field 1 s pid /\ int_field 2 s seq /\ int_field 3 s (N.of_nat (length datas)) /\
          get_b 1 (pl_meta p) = Some name /\ int_field 2 (pl_meta p) seq /\
          int_field 3 (pl_meta p) now /\ int_field 12 (pl_meta p) now /\
          int_field 11 (pl_meta p) (N.of_nat (length datas)) /\
          pl_data p = concat (map batch_part datas)
      end
  | OAck acks => mc_payload mc = None /\ exists s a, hd_error acks = Some a /\ carries mc 10 10 s /\
      int_field 1 s (ak_cid a) /\ int_field 8 s (ak_rid a) /\
      int_field 2 s (if Nat.eqb (length acks) 1 then 0 else 1) /\
      get_ms 3 s = map ak_mid acks
  | OLookup rid topic => mc_payload mc = None /\ exists s, carries mc 23 23 s /\
      get_b 1 s = Some topic /\ int_field 2 s rid
  | OSubscribe topic subscription cid rid st => mc_payload mc = None /\ exists s, carries mc 4 4 s /\
      get_b 1 s = Some topic /\ get_b 2 s = Some subscription /\ int_field 4 s cid /\ int_field 5 s rid /\
      int_field 3 s match st with Exclusive => 0 | Shared => 1 | Failover => 2 | KeyShared => 3 end
  | OAuth method data => mc_payload mc = None /\ exists s, carries mc 36 37 s /\
      exists ad, get_m 2 s = Some ad /\ get_b 1 ad = Some method /\ get_b 2 ad = Some data
  | OFlow cid permits => mc_payload mc = None /\ exists s, carries mc 11 11 s /\
      int_field 1 s cid /\ int_field 2 s permits
  | OProducer topic pid rid name => mc_payload mc = None /\ exists s, carries mc 5 5 s /\
      get_b 1 s = Some topic /\ int_field 2 s pid /\ int_field 3 s rid /\ get_b 4 s = name
  end.

(** * Incoming commands *)
(** The ten command types the client understands. *)
Definition supported (ty : Z) : Prop := In ty [3; 7; 9; 13; 17; 18; 19; 24; 36; 38]%Z.
(** The type field of a command, when it is one of the protocol's. *)
Definition type_is (mc : msg_cmd) (ty : Z) : Prop :=
  get_z 1 (mc_cmd mc) = Some ty /\ In ty (enum_values E_BaseCommand_Type).

(** What a supported command without a batch means. *)
Inductive means : msg_cmd -> inbound -> Prop :=
| M_ping mc : type_is mc 18 -> means mc InPing
| M_pong mc : type_is mc 19 -> means mc InPong
| M_connected mc : type_is mc 3 -> means mc InConnected
| M_receipt mc r mid : type_is mc 7 -> get_m 7 (mc_cmd mc) = Some r -> get_m 3 r = Some mid ->
    means mc (InReceipt (get_u 1 r) (get_u 2 r) mid)
| M_ack mc r : type_is mc 38 -> get_m 38 (mc_cmd mc) = Some r ->
    means mc (InAckReceipt (get_u 1 r) (get_u 6 r))
| M_lookup mc r t : type_is mc 24 -> get_m 24 (mc_cmd mc) = Some r ->
    (t = LConnect /\ get_z 3 r = Some 1%Z \/ t = LFailed /\ get_z 3 r = Some 2%Z \/
     t = LRedirect /\ get_z 3 r <> Some 1%Z /\ get_z 3 r <> Some 2%Z) ->
    means mc (InLookup (mk_lookup (get_u 4 r) (b_or [] (get_b 1 r)) (b_or [] (get_b 2 r)) t
                (negb (get_u 5 r =? 0)) (negb (get_u 8 r =? 0))))
| M_auth mc : type_is mc 36 -> means mc InAuthChallenge
| M_success mc r : type_is mc 13 -> get_m 13 (mc_cmd mc) = Some r -> means mc (InSuccess (get_u 1 r))
| M_producer mc r : type_is mc 17 -> get_m 17 (mc_cmd mc) = Some r ->
    means mc (InProducerSuccess (get_u 1 r) (b_or [] (get_b 2 r)))
| M_single mc m mid p : type_is mc 9 -> get_m 9 (mc_cmd mc) = Some m -> get_m 2 m = Some mid ->
    mc_payload mc = Some p ->
    (get_z 11 (pl_meta p) = None \/ exists n, get_z 11 (pl_meta p) = Some n /\ (n <= 1)%Z) ->
    means mc (InMessage (DSingle (get_u 1 m) mid (pl_data p)))
| M_batch mc m mid p n l rest : type_is mc 9 -> get_m 9 (mc_cmd mc) = Some m -> get_m 2 m = Some mid ->
    mc_payload mc = Some p -> get_z 11 (pl_meta p) = Some n -> (1 < n)%Z ->
    batch_reads (pl_data p) l rest -> Z.of_nat (length l) = n ->
    means mc (InMessage (DBatch (get_u 1 m) mid l))
(** Reading the entries of a batch one after the other. *)
with batch_reads : bytes -> list batched -> bytes -> Prop :=
| B_nil b : batch_reads b [] b
| B_cons mb md n d l b rest : parse_msg M_SingleMessageMetadata mb = Some md ->
    get_z 3 md = Some n -> Z.of_N (blen d) = n -> blen mb < 2 ^ 32 ->
    batch_reads b l rest ->
    batch_reads (be_bytes 4 (blen mb) ++ mb ++ d ++ b) (mk_batched md d :: l) rest.

(** A supported command whose mandatory parts are missing. *)
Definition broken (mc : msg_cmd) : Prop :=
  (type_is mc 7 /\ (get_m 7 (mc_cmd mc) = None \/ exists r, get_m 7 (mc_cmd mc) = Some r /\ get_m 3 r = None)) \/
  (type_is mc 38 /\ get_m 38 (mc_cmd mc) = None) \/
  (type_is mc 24 /\ get_m 24 (mc_cmd mc) = None) \/
  (type_is mc 13 /\ get_m 13 (mc_cmd mc) = None) \/
  (type_is mc 17 /\ get_m 17 (mc_cmd mc) = None) \/
  (type_is mc 9 /\ (get_m 9 (mc_cmd mc) = None \/ mc_payload mc = None \/
                    exists m, get_m 9 (mc_cmd mc) = Some m /\ get_m 2 m = None)).

(** * When two events carry the same values (C09): equal, except that message
    ids are compared by [same_msg]. *)
Definition same_mid (a b : message) : Prop := same_msg 98 M_MessageIdData a b.
Definition same_delivery (a b : delivery) : Prop :=
  match a, b with
  | DSingle c m d, DSingle c' m' d' => c = c' /\ same_mid m m' /\ d = d'
  | DBatch c m l, DBatch c' m' l' => c = c' /\ same_mid m m' /\ l = l'
  | _, _ => False
  end.
Definition same_event (a b : inbound) : Prop :=
  match a, b with
  | InReceipt p s m, InReceipt p' s' m' => p = p' /\ s = s' /\ same_mid m m'
  | InMessage d, InMessage d' => same_delivery d d'
  | _, _ => a = b
  end.
Definition same_outcome (a b : outcome inbound) : Prop :=
  match a, b with
  | Ok x, Ok y => same_event x y
  | Err e, Err e' => e = e'
  | Panic, Panic => True
  | _, _ => False
  end.
