(** C07-C09: protobuf messages. *)
From Verif Require Import Bytes Errors Utf8 Wire Proto ProtoFacts SpecProto SimFacts Codec Address Message SpecMessage
  MessageFacts InboundFacts.
Open Scope N_scope.

(** C07. Serialising and parsing back gives the same fields, for every message
    type of pulsar.proto and every value a generated struct can hold (field
    values in range, strings UTF-8, required fields present, nesting within the
    library's limit), as long as it is shorter than 2^64 bytes. *)
Theorem C07_roundtrip : forall m fs,
  well_typed m fs = true -> blen (write_msg fs) < 2 ^ 64 -> parse_msg m (write_msg fs) = Some fs.
Proof. exact parse_write_msg. Qed.
Print Assumptions C07_roundtrip.

(** C07. Conversely everything parsed is such a message, so it can be written and
    read again without change (forwarding a received message id in an
    acknowledgement). *)
Theorem C07_parsed_is_well_typed : forall m b fs, parse_msg m b = Some fs -> well_typed m fs = true.
Proof. exact parse_msg_well_typed. Qed.
Print Assumptions C07_parsed_is_well_typed.

(** Negative int32, nested ids, repeated field, unknown field. *)
Definition ex_mid : message :=
  [(1, PInt 17); (2, PInt 4); (3, PInt (-1)); (5, PInt (-9223372036854775808)); (5, PInt 7);
   (7, PMsg [(1, PInt 17); (2, PInt 3)]); (99, PUnk (WVarint 5))].
Example C07_meets : well_typed M_MessageIdData ex_mid = true /\
  parse_msg M_MessageIdData (write_msg ex_mid) = Some ex_mid.
Proof. split; vm_compute; reflexivity. Qed.

(** C08. The computed size is the number of bytes written, for every message. *)
Theorem C08_size_exact : forall fs, compute_size fs = blen (write_msg fs).
Proof. exact compute_size_ok. Qed.
Print Assumptions C08_size_exact.
Example C08_meets : compute_size ex_mid = 37 /\ blen (write_msg ex_mid) = 37.
Proof. split; vm_compute; reflexivity. Qed.

(** C08. The same holds for each field value inside a message, in particular for
    the length prefixes of sub-messages. *)
Theorem C08_nested_size_exact : forall v, val_size v = blen (write_wval (to_raw v)).
Proof. exact val_size_ok. Qed.
Print Assumptions C08_nested_size_exact.

(** C09. If two encodings say the same thing about the fields the schema declares,
    both parse or neither does, and the results agree on every declared field. *)
Theorem C09_parse_same : forall m b b' rs rs' fs,
  parse_raw b = Some rs -> parse_raw b' = Some rs' -> same_wire recursion_limit m rs rs' ->
  parse_msg m b = Some fs ->
  exists fs', parse_msg m b' = Some fs' /\ same_msg recursion_limit m fs fs'.
Proof. exact parse_same. Qed.
Print Assumptions C09_parse_same.

(** C09. A whole incoming command: command bytes, and optionally metadata bytes
    and payload. Whatever the client makes of one encoding (event, error or
    panic) it makes of the other. *)
Theorem C09_events_same : forall b b' rs rs' fs,
  parse_raw b = Some rs -> parse_raw b' = Some rs' -> same_wire recursion_limit M_BaseCommand rs rs' ->
  parse_msg M_BaseCommand b = Some fs ->
  exists fs', parse_msg M_BaseCommand b' = Some fs' /\
    same_outcome (to_inbound (mk_cmd fs None)) (to_inbound (mk_cmd fs' None)) /\
    forall mb mb' mrs mrs' md data,
      parse_raw mb = Some mrs -> parse_raw mb' = Some mrs' -> same_wire recursion_limit M_MessageMetadata mrs mrs' ->
      parse_msg M_MessageMetadata mb = Some md ->
      exists md', parse_msg M_MessageMetadata mb' = Some md' /\
        same_outcome (to_inbound (mk_cmd fs (Some (mk_payload md data))))
                     (to_inbound (mk_cmd fs' (Some (mk_payload md' data)))).
Proof.
  intros b b' rs rs' fs H1 H2 H3 H4. destruct (parse_same _ _ _ _ _ _ H1 H2 H3 H4) as (fs' & H5 & H6).
  exists fs'. split; [exact H5|]. split; [now apply to_inbound_same|].
  intros mb mb' mrs mrs' md data K1 K2 K3 K4. destruct (parse_same _ _ _ _ _ _ K1 K2 K3 K4) as (md' & K5 & K6).
  exists md'. split; [exact K5|]. apply to_inbound_same; [exact H6|]. split; [exact K6|reflexivity].
Qed.
Print Assumptions C09_events_same.

(** C09. Adding an undeclared field anywhere, and exchanging neighbouring fields
    with different numbers, say the same thing; so does any composition. *)
Theorem C09_unknown_field : forall d m a b n w,
  (forall f, In f (fields m) -> f_num f <> n) -> same_wire d m (a ++ b) (a ++ (n, w) :: b).
Proof.
  intros d m a b n w Hn. apply same_wire_unfold. intros f Hf.
  replace (occurrences (f_num f) (a ++ (n, w) :: b)) with (occurrences (f_num f) (a ++ b)).
  - apply Forall2_refl'. intros x. now left.
  - unfold occurrences. rewrite !filter_app, !map_app. cbn [filter fst].
    replace (n =? f_num f) with false; [reflexivity|]. symmetry. apply N.eqb_neq. intros E. now apply (Hn f Hf).
Qed.
Print Assumptions C09_unknown_field.
Theorem C09_reordered : forall d m a b x y,
  fst x <> fst y -> same_wire d m (a ++ x :: y :: b) (a ++ y :: x :: b).
Proof.
  intros d m a b [n w] [k v] Hn. cbn in Hn. apply same_wire_unfold. intros f Hf.
  replace (occurrences (f_num f) (a ++ (k, v) :: (n, w) :: b)) with (occurrences (f_num f) (a ++ (n, w) :: (k, v) :: b)).
  - apply Forall2_refl'. intros x. now left.
  - unfold occurrences. rewrite !filter_app, !map_app. cbn [filter fst].
    destruct (N.eqb_spec n (f_num f)), (N.eqb_spec k (f_num f)); try reflexivity. congruence.
Qed.
Print Assumptions C09_reordered.

(** A send receipt, and the same with an unknown field and the fields reversed. *)
Definition ex_receipt : list (N * wval) :=
  raws [(1, PInt 7); (7, PMsg [(1, PInt 3); (2, PInt 9); (3, PMsg [(1, PInt 5); (2, PInt 6)])])].
Definition ex_receipt' : list (N * wval) := rev ex_receipt ++ [(500, WLen (str "new"))].
Example C09_meets :
  same_wire recursion_limit M_BaseCommand ex_receipt ex_receipt' /\
  (exists fs fs', parse_msg M_BaseCommand (write_raws ex_receipt) = Some fs /\
     parse_msg M_BaseCommand (write_raws ex_receipt') = Some fs' /\
     to_inbound (mk_cmd fs None) = Ok (InReceipt 3 9 [(1, PInt 5); (2, PInt 6)]) /\
     to_inbound (mk_cmd fs' None) = Ok (InReceipt 3 9 [(1, PInt 5); (2, PInt 6)])).
Proof.
  split.
  - apply same_wire_unfold. intros f Hf.
    replace (occurrences (f_num f) ex_receipt') with (occurrences (f_num f) ex_receipt).
    + apply Forall2_refl'. intros x. now left.
    + assert (H : f_num f <> 500).
      { assert (Hall : forallb (fun f => negb (f_num f =? 500)) (fields M_BaseCommand) = true) by reflexivity.
        rewrite forallb_forall in Hall. specialize (Hall f Hf). lia. }
      unfold ex_receipt', ex_receipt, occurrences. cbn [raws map rev app filter fst].
      destruct (N.eqb_spec 1 (f_num f)), (N.eqb_spec 7 (f_num f)), (N.eqb_spec 500 (f_num f)); try reflexivity; congruence.
  - eexists _, _. repeat split; vm_compute; reflexivity.
Qed.
