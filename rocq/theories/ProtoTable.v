(** GENERATED by tools/gen_proto.py from /repo/src/protos/pulsar.proto (all messages and enums;
    line numbers of each message are cited). A transcription: no simplification. *)
From Coq Require Import List NArith ZArith. Import ListNotations.
Inductive mname :=
| M_Schema
| M_MessageIdData
| M_KeyValue
| M_KeyLongValue
| M_IntRange
| M_EncryptionKeys
| M_MessageMetadata
| M_SingleMessageMetadata
| M_BrokerEntryMetadata
| M_CommandConnect
| M_FeatureFlags
| M_CommandConnected
| M_CommandAuthResponse
| M_CommandAuthChallenge
| M_AuthData
| M_KeySharedMeta
| M_CommandSubscribe
| M_CommandPartitionedTopicMetadata
| M_CommandPartitionedTopicMetadataResponse
| M_CommandLookupTopic
| M_CommandLookupTopicResponse
| M_CommandProducer
| M_CommandSend
| M_CommandSendReceipt
| M_CommandSendError
| M_CommandMessage
| M_CommandAck
| M_CommandAckResponse
| M_CommandActiveConsumerChange
| M_CommandFlow
| M_CommandUnsubscribe
| M_CommandSeek
| M_CommandReachedEndOfTopic
| M_CommandTopicMigrated
| M_CommandCloseProducer
| M_CommandCloseConsumer
| M_CommandRedeliverUnacknowledgedMessages
| M_CommandSuccess
| M_CommandProducerSuccess
| M_CommandError
| M_CommandPing
| M_CommandPong
| M_CommandConsumerStats
| M_CommandConsumerStatsResponse
| M_CommandGetLastMessageId
| M_CommandGetLastMessageIdResponse
| M_CommandGetTopicsOfNamespace
| M_CommandGetTopicsOfNamespaceResponse
| M_CommandWatchTopicList
| M_CommandWatchTopicListSuccess
| M_CommandWatchTopicUpdate
| M_CommandWatchTopicListClose
| M_CommandGetSchema
| M_CommandGetSchemaResponse
| M_CommandGetOrCreateSchema
| M_CommandGetOrCreateSchemaResponse
| M_CommandTcClientConnectRequest
| M_CommandTcClientConnectResponse
| M_CommandNewTxn
| M_CommandNewTxnResponse
| M_CommandAddPartitionToTxn
| M_CommandAddPartitionToTxnResponse
| M_Subscription
| M_CommandAddSubscriptionToTxn
| M_CommandAddSubscriptionToTxnResponse
| M_CommandEndTxn
| M_CommandEndTxnResponse
| M_CommandEndTxnOnPartition
| M_CommandEndTxnOnPartitionResponse
| M_CommandEndTxnOnSubscription
| M_CommandEndTxnOnSubscriptionResponse
| M_BaseCommand.
Inductive ename :=
| E_Schema_Type
| E_CompressionType
| E_ProducerAccessMode
| E_ServerError
| E_AuthMethod
| E_ProtocolVersion
| E_KeySharedMode
| E_CommandSubscribe_SubType
| E_CommandSubscribe_InitialPosition
| E_CommandPartitionedTopicMetadataResponse_LookupType
| E_CommandLookupTopicResponse_LookupType
| E_CommandAck_AckType
| E_CommandAck_ValidationError
| E_CommandTopicMigrated_ResourceType
| E_CommandGetTopicsOfNamespace_Mode
| E_TxnAction
| E_BaseCommand_Type.
(** Field types of proto2 used by the file. *)
Inductive ftype := TU64 | TU32 | TI32 | TI64 | TBool | TStr | TByt | TDouble | TEnum (e : ename) | TMsg (m : mname).
Inductive card := Req | Opt | Rep.
Record field := mkf { f_num : N; f_card : card; f_ty : ftype }.
Open Scope N_scope.
Definition fields (m : mname) : list field :=
  match m with
  (* src/protos/pulsar.proto:25 message Schema *)
  | M_Schema => [mkf 1 Req TStr (* name *);
      mkf 3 Req TByt (* schema_data *);
      mkf 4 Req (TEnum E_Schema_Type) (* type *);
      mkf 5 Rep (TMsg M_KeyValue) (* properties *)]
  (* src/protos/pulsar.proto:58 message MessageIdData *)
  | M_MessageIdData => [mkf 1 Req TU64 (* ledgerId *);
      mkf 2 Req TU64 (* entryId *);
      mkf 3 Opt TI32 (* partition *);
      mkf 4 Opt TI32 (* batch_index *);
      mkf 5 Rep TI64 (* ack_set *);
      mkf 6 Opt TI32 (* batch_size *);
      mkf 7 Opt (TMsg M_MessageIdData) (* first_chunk_message_id *)]
  (* src/protos/pulsar.proto:70 message KeyValue *)
  | M_KeyValue => [mkf 1 Req TStr (* key *);
      mkf 2 Req TStr (* value *)]
  (* src/protos/pulsar.proto:75 message KeyLongValue *)
  | M_KeyLongValue => [mkf 1 Req TStr (* key *);
      mkf 2 Req TU64 (* value *)]
  (* src/protos/pulsar.proto:80 message IntRange *)
  | M_IntRange => [mkf 1 Req TI32 (* start *);
      mkf 2 Req TI32 (* end *)]
  (* src/protos/pulsar.proto:85 message EncryptionKeys *)
  | M_EncryptionKeys => [mkf 1 Req TStr (* key *);
      mkf 2 Req TByt (* value *);
      mkf 3 Rep (TMsg M_KeyValue) (* metadata *)]
  (* src/protos/pulsar.proto:106 message MessageMetadata *)
  | M_MessageMetadata => [mkf 1 Req TStr (* producer_name *);
      mkf 2 Req TU64 (* sequence_id *);
      mkf 3 Req TU64 (* publish_time *);
      mkf 4 Rep (TMsg M_KeyValue) (* properties *);
      mkf 5 Opt TStr (* replicated_from *);
      mkf 6 Opt TStr (* partition_key *);
      mkf 7 Rep TStr (* replicate_to *);
      mkf 8 Opt (TEnum E_CompressionType) (* compression *);
      mkf 9 Opt TU32 (* uncompressed_size *);
      mkf 11 Opt TI32 (* num_messages_in_batch *);
      mkf 12 Opt TU64 (* event_time *);
      mkf 13 Rep (TMsg M_EncryptionKeys) (* encryption_keys *);
      mkf 14 Opt TStr (* encryption_algo *);
      mkf 15 Opt TByt (* encryption_param *);
      mkf 16 Opt TByt (* schema_version *);
      mkf 17 Opt TBool (* partition_key_b64_encoded *);
      mkf 18 Opt TByt (* ordering_key *);
      mkf 19 Opt TI64 (* deliver_at_time *);
      mkf 20 Opt TI32 (* marker_type *);
      mkf 22 Opt TU64 (* txnid_least_bits *);
      mkf 23 Opt TU64 (* txnid_most_bits *);
      mkf 24 Opt TU64 (* highest_sequence_id *);
      mkf 25 Opt TBool (* null_value *);
      mkf 26 Opt TStr (* uuid *);
      mkf 27 Opt TI32 (* num_chunks_from_msg *);
      mkf 28 Opt TI32 (* total_chunk_msg_size *);
      mkf 29 Opt TI32 (* chunk_id *);
      mkf 30 Opt TBool (* null_partition_key *)]
  (* src/protos/pulsar.proto:168 message SingleMessageMetadata *)
  | M_SingleMessageMetadata => [mkf 1 Rep (TMsg M_KeyValue) (* properties *);
      mkf 2 Opt TStr (* partition_key *);
      mkf 3 Req TI32 (* payload_size *);
      mkf 4 Opt TBool (* compacted_out *);
      mkf 5 Opt TU64 (* event_time *);
      mkf 6 Opt TBool (* partition_key_b64_encoded *);
      mkf 7 Opt TByt (* ordering_key *);
      mkf 8 Opt TU64 (* sequence_id *);
      mkf 9 Opt TBool (* null_value *);
      mkf 10 Opt TBool (* null_partition_key *)]
  (* src/protos/pulsar.proto:189 message BrokerEntryMetadata *)
  | M_BrokerEntryMetadata => [mkf 1 Opt TU64 (* broker_timestamp *);
      mkf 2 Opt TU64 (* index *)]
  (* src/protos/pulsar.proto:270 message CommandConnect *)
  | M_CommandConnect => [mkf 1 Req TStr (* client_version *);
      mkf 2 Opt (TEnum E_AuthMethod) (* auth_method *);
      mkf 5 Opt TStr (* auth_method_name *);
      mkf 3 Opt TByt (* auth_data *);
      mkf 4 Opt TI32 (* protocol_version *);
      mkf 6 Opt TStr (* proxy_to_broker_url *);
      mkf 7 Opt TStr (* original_principal *);
      mkf 8 Opt TStr (* original_auth_data *);
      mkf 9 Opt TStr (* original_auth_method *);
      mkf 10 Opt (TMsg M_FeatureFlags) (* feature_flags *);
      mkf 11 Opt TStr (* proxy_version *)]
  (* src/protos/pulsar.proto:298 message FeatureFlags *)
  | M_FeatureFlags => [mkf 1 Opt TBool (* supports_auth_refresh *);
      mkf 2 Opt TBool (* supports_broker_entry_metadata *);
      mkf 3 Opt TBool (* supports_partial_producer *);
      mkf 4 Opt TBool (* supports_topic_watchers *)]
  (* src/protos/pulsar.proto:305 message CommandConnected *)
  | M_CommandConnected => [mkf 1 Req TStr (* server_version *);
      mkf 2 Opt TI32 (* protocol_version *);
      mkf 3 Opt TI32 (* max_message_size *);
      mkf 4 Opt (TMsg M_FeatureFlags) (* feature_flags *)]
  (* src/protos/pulsar.proto:312 message CommandAuthResponse *)
  | M_CommandAuthResponse => [mkf 1 Opt TStr (* client_version *);
      mkf 2 Opt (TMsg M_AuthData) (* response *);
      mkf 3 Opt TI32 (* protocol_version *)]
  (* src/protos/pulsar.proto:318 message CommandAuthChallenge *)
  | M_CommandAuthChallenge => [mkf 1 Opt TStr (* server_version *);
      mkf 2 Opt (TMsg M_AuthData) (* challenge *);
      mkf 3 Opt TI32 (* protocol_version *)]
  (* src/protos/pulsar.proto:325 message AuthData *)
  | M_AuthData => [mkf 1 Opt TStr (* auth_method_name *);
      mkf 2 Opt TByt (* auth_data *)]
  (* src/protos/pulsar.proto:335 message KeySharedMeta *)
  | M_KeySharedMeta => [mkf 1 Req (TEnum E_KeySharedMode) (* keySharedMode *);
      mkf 3 Rep (TMsg M_IntRange) (* hashRanges *);
      mkf 4 Opt TBool (* allowOutOfOrderDelivery *)]
  (* src/protos/pulsar.proto:341 message CommandSubscribe *)
  | M_CommandSubscribe => [mkf 1 Req TStr (* topic *);
      mkf 2 Req TStr (* subscription *);
      mkf 3 Req (TEnum E_CommandSubscribe_SubType) (* subType *);
      mkf 4 Req TU64 (* consumer_id *);
      mkf 5 Req TU64 (* request_id *);
      mkf 6 Opt TStr (* consumer_name *);
      mkf 7 Opt TI32 (* priority_level *);
      mkf 8 Opt TBool (* durable *);
      mkf 9 Opt (TMsg M_MessageIdData) (* start_message_id *);
      mkf 10 Rep (TMsg M_KeyValue) (* metadata *);
      mkf 11 Opt TBool (* read_compacted *);
      mkf 12 Opt (TMsg M_Schema) (* schema *);
      mkf 13 Opt (TEnum E_CommandSubscribe_InitialPosition) (* initialPosition *);
      mkf 14 Opt TBool (* replicate_subscription_state *);
      mkf 15 Opt TBool (* force_topic_creation *);
      mkf 16 Opt TU64 (* start_message_rollback_duration_sec *);
      mkf 17 Opt (TMsg M_KeySharedMeta) (* keySharedMeta *);
      mkf 18 Rep (TMsg M_KeyValue) (* subscription_properties *);
      mkf 19 Opt TU64 (* consumer_epoch *)]
  (* src/protos/pulsar.proto:404 message CommandPartitionedTopicMetadata *)
  | M_CommandPartitionedTopicMetadata => [mkf 1 Req TStr (* topic *);
      mkf 2 Req TU64 (* request_id *);
      mkf 3 Opt TStr (* original_principal *);
      mkf 4 Opt TStr (* original_auth_data *);
      mkf 5 Opt TStr (* original_auth_method *)]
  (* src/protos/pulsar.proto:418 message CommandPartitionedTopicMetadataResponse *)
  | M_CommandPartitionedTopicMetadataResponse => [mkf 1 Opt TU32 (* partitions *);
      mkf 2 Req TU64 (* request_id *);
      mkf 3 Opt (TEnum E_CommandPartitionedTopicMetadataResponse_LookupType) (* response *);
      mkf 4 Opt (TEnum E_ServerError) (* error *);
      mkf 5 Opt TStr (* message *)]
  (* src/protos/pulsar.proto:430 message CommandLookupTopic *)
  | M_CommandLookupTopic => [mkf 1 Req TStr (* topic *);
      mkf 2 Req TU64 (* request_id *);
      mkf 3 Opt TBool (* authoritative *);
      mkf 4 Opt TStr (* original_principal *);
      mkf 5 Opt TStr (* original_auth_data *);
      mkf 6 Opt TStr (* original_auth_method *);
      mkf 7 Opt TStr (* advertised_listener_name *)]
  (* src/protos/pulsar.proto:448 message CommandLookupTopicResponse *)
  | M_CommandLookupTopicResponse => [mkf 1 Opt TStr (* brokerServiceUrl *);
      mkf 2 Opt TStr (* brokerServiceUrlTls *);
      mkf 3 Opt (TEnum E_CommandLookupTopicResponse_LookupType) (* response *);
      mkf 4 Req TU64 (* request_id *);
      mkf 5 Opt TBool (* authoritative *);
      mkf 6 Opt (TEnum E_ServerError) (* error *);
      mkf 7 Opt TStr (* message *);
      mkf 8 Opt TBool (* proxy_through_service_url *)]
  (* src/protos/pulsar.proto:471 message CommandProducer *)
  | M_CommandProducer => [mkf 1 Req TStr (* topic *);
      mkf 2 Req TU64 (* producer_id *);
      mkf 3 Req TU64 (* request_id *);
      mkf 4 Opt TStr (* producer_name *);
      mkf 5 Opt TBool (* encrypted *);
      mkf 6 Rep (TMsg M_KeyValue) (* metadata *);
      mkf 7 Opt (TMsg M_Schema) (* schema *);
      mkf 8 Opt TU64 (* epoch *);
      mkf 9 Opt TBool (* user_provided_producer_name *);
      mkf 10 Opt (TEnum E_ProducerAccessMode) (* producer_access_mode *);
      mkf 11 Opt TU64 (* topic_epoch *);
      mkf 12 Opt TBool (* txn_enabled *);
      mkf 13 Opt TStr (* initial_subscription_name *)]
  (* src/protos/pulsar.proto:513 message CommandSend *)
  | M_CommandSend => [mkf 1 Req TU64 (* producer_id *);
      mkf 2 Req TU64 (* sequence_id *);
      mkf 3 Opt TI32 (* num_messages *);
      mkf 4 Opt TU64 (* txnid_least_bits *);
      mkf 5 Opt TU64 (* txnid_most_bits *);
      mkf 6 Opt TU64 (* highest_sequence_id *);
      mkf 7 Opt TBool (* is_chunk *);
      mkf 8 Opt TBool (* marker *);
      mkf 9 Opt (TMsg M_MessageIdData) (* message_id *)]
  (* src/protos/pulsar.proto:531 message CommandSendReceipt *)
  | M_CommandSendReceipt => [mkf 1 Req TU64 (* producer_id *);
      mkf 2 Req TU64 (* sequence_id *);
      mkf 3 Opt (TMsg M_MessageIdData) (* message_id *);
      mkf 4 Opt TU64 (* highest_sequence_id *)]
  (* src/protos/pulsar.proto:538 message CommandSendError *)
  | M_CommandSendError => [mkf 1 Req TU64 (* producer_id *);
      mkf 2 Req TU64 (* sequence_id *);
      mkf 3 Req (TEnum E_ServerError) (* error *);
      mkf 4 Req TStr (* message *)]
  (* src/protos/pulsar.proto:545 message CommandMessage *)
  | M_CommandMessage => [mkf 1 Req TU64 (* consumer_id *);
      mkf 2 Req (TMsg M_MessageIdData) (* message_id *);
      mkf 3 Opt TU32 (* redelivery_count *);
      mkf 4 Rep TI64 (* ack_set *);
      mkf 5 Opt TU64 (* consumer_epoch *)]
  (* src/protos/pulsar.proto:553 message CommandAck *)
  | M_CommandAck => [mkf 1 Req TU64 (* consumer_id *);
      mkf 2 Req (TEnum E_CommandAck_AckType) (* ack_type *);
      mkf 3 Rep (TMsg M_MessageIdData) (* message_id *);
      mkf 4 Opt (TEnum E_CommandAck_ValidationError) (* validation_error *);
      mkf 5 Rep (TMsg M_KeyLongValue) (* properties *);
      mkf 6 Opt TU64 (* txnid_least_bits *);
      mkf 7 Opt TU64 (* txnid_most_bits *);
      mkf 8 Opt TU64 (* request_id *)]
  (* src/protos/pulsar.proto:584 message CommandAckResponse *)
  | M_CommandAckResponse => [mkf 1 Req TU64 (* consumer_id *);
      mkf 2 Opt TU64 (* txnid_least_bits *);
      mkf 3 Opt TU64 (* txnid_most_bits *);
      mkf 4 Opt (TEnum E_ServerError) (* error *);
      mkf 5 Opt TStr (* message *);
      mkf 6 Opt TU64 (* request_id *)]
  (* src/protos/pulsar.proto:594 message CommandActiveConsumerChange *)
  | M_CommandActiveConsumerChange => [mkf 1 Req TU64 (* consumer_id *);
      mkf 2 Opt TBool (* is_active *)]
  (* src/protos/pulsar.proto:599 message CommandFlow *)
  | M_CommandFlow => [mkf 1 Req TU64 (* consumer_id *);
      mkf 2 Req TU32 (* messagePermits *)]
  (* src/protos/pulsar.proto:607 message CommandUnsubscribe *)
  | M_CommandUnsubscribe => [mkf 1 Req TU64 (* consumer_id *);
      mkf 2 Req TU64 (* request_id *);
      mkf 3 Opt TBool (* force *)]
  (* src/protos/pulsar.proto:614 message CommandSeek *)
  | M_CommandSeek => [mkf 1 Req TU64 (* consumer_id *);
      mkf 2 Req TU64 (* request_id *);
      mkf 3 Opt (TMsg M_MessageIdData) (* message_id *);
      mkf 4 Opt TU64 (* message_publish_time *)]
  (* src/protos/pulsar.proto:625 message CommandReachedEndOfTopic *)
  | M_CommandReachedEndOfTopic => [mkf 1 Req TU64 (* consumer_id *)]
  (* src/protos/pulsar.proto:629 message CommandTopicMigrated *)
  | M_CommandTopicMigrated => [mkf 1 Req TU64 (* resource_id *);
      mkf 2 Req (TEnum E_CommandTopicMigrated_ResourceType) (* resource_type *);
      mkf 3 Opt TStr (* brokerServiceUrl *);
      mkf 4 Opt TStr (* brokerServiceUrlTls *)]
  (* src/protos/pulsar.proto:642 message CommandCloseProducer *)
  | M_CommandCloseProducer => [mkf 1 Req TU64 (* producer_id *);
      mkf 2 Req TU64 (* request_id *);
      mkf 3 Opt TStr (* assignedBrokerServiceUrl *);
      mkf 4 Opt TStr (* assignedBrokerServiceUrlTls *)]
  (* src/protos/pulsar.proto:649 message CommandCloseConsumer *)
  | M_CommandCloseConsumer => [mkf 1 Req TU64 (* consumer_id *);
      mkf 2 Req TU64 (* request_id *);
      mkf 3 Opt TStr (* assignedBrokerServiceUrl *);
      mkf 4 Opt TStr (* assignedBrokerServiceUrlTls *)]
  (* src/protos/pulsar.proto:656 message CommandRedeliverUnacknowledgedMessages *)
  | M_CommandRedeliverUnacknowledgedMessages => [mkf 1 Req TU64 (* consumer_id *);
      mkf 2 Rep (TMsg M_MessageIdData) (* message_ids *);
      mkf 3 Opt TU64 (* consumer_epoch *)]
  (* src/protos/pulsar.proto:662 message CommandSuccess *)
  | M_CommandSuccess => [mkf 1 Req TU64 (* request_id *);
      mkf 2 Opt (TMsg M_Schema) (* schema *)]
  (* src/protos/pulsar.proto:668 message CommandProducerSuccess *)
  | M_CommandProducerSuccess => [mkf 1 Req TU64 (* request_id *);
      mkf 2 Req TStr (* producer_name *);
      mkf 3 Opt TI64 (* last_sequence_id *);
      mkf 4 Opt TByt (* schema_version *);
      mkf 5 Opt TU64 (* topic_epoch *);
      mkf 6 Opt TBool (* producer_ready *)]
  (* src/protos/pulsar.proto:687 message CommandError *)
  | M_CommandError => [mkf 1 Req TU64 (* request_id *);
      mkf 2 Req (TEnum E_ServerError) (* error *);
      mkf 3 Req TStr (* message *)]
  (* src/protos/pulsar.proto:696 message CommandPing *)
  | M_CommandPing => []
  (* src/protos/pulsar.proto:698 message CommandPong *)
  | M_CommandPong => []
  (* src/protos/pulsar.proto:701 message CommandConsumerStats *)
  | M_CommandConsumerStats => [mkf 1 Req TU64 (* request_id *);
      mkf 4 Req TU64 (* consumer_id *)]
  (* src/protos/pulsar.proto:708 message CommandConsumerStatsResponse *)
  | M_CommandConsumerStatsResponse => [mkf 1 Req TU64 (* request_id *);
      mkf 2 Opt (TEnum E_ServerError) (* error_code *);
      mkf 3 Opt TStr (* error_message *);
      mkf 4 Opt TDouble (* msgRateOut *);
      mkf 5 Opt TDouble (* msgThroughputOut *);
      mkf 6 Opt TDouble (* msgRateRedeliver *);
      mkf 7 Opt TStr (* consumerName *);
      mkf 8 Opt TU64 (* availablePermits *);
      mkf 9 Opt TU64 (* unackedMessages *);
      mkf 10 Opt TBool (* blockedConsumerOnUnackedMsgs *);
      mkf 11 Opt TStr (* address *);
      mkf 12 Opt TStr (* connectedSince *);
      mkf 13 Opt TStr (* type *);
      mkf 14 Opt TDouble (* msgRateExpired *);
      mkf 15 Opt TU64 (* msgBacklog *);
      mkf 16 Opt TDouble (* messageAckRate *)]
  (* src/protos/pulsar.proto:753 message CommandGetLastMessageId *)
  | M_CommandGetLastMessageId => [mkf 1 Req TU64 (* consumer_id *);
      mkf 2 Req TU64 (* request_id *)]
  (* src/protos/pulsar.proto:758 message CommandGetLastMessageIdResponse *)
  | M_CommandGetLastMessageIdResponse => [mkf 1 Req (TMsg M_MessageIdData) (* last_message_id *);
      mkf 2 Req TU64 (* request_id *);
      mkf 3 Opt (TMsg M_MessageIdData) (* consumer_mark_delete_position *)]
  (* src/protos/pulsar.proto:764 message CommandGetTopicsOfNamespace *)
  | M_CommandGetTopicsOfNamespace => [mkf 1 Req TU64 (* request_id *);
      mkf 2 Req TStr (* namespace *);
      mkf 3 Opt (TEnum E_CommandGetTopicsOfNamespace_Mode) (* mode *);
      mkf 4 Opt TStr (* topics_pattern *);
      mkf 5 Opt TStr (* topics_hash *)]
  (* src/protos/pulsar.proto:777 message CommandGetTopicsOfNamespaceResponse *)
  | M_CommandGetTopicsOfNamespaceResponse => [mkf 1 Req TU64 (* request_id *);
      mkf 2 Rep TStr (* topics *);
      mkf 3 Opt TBool (* filtered *);
      mkf 4 Opt TStr (* topics_hash *);
      mkf 5 Opt TBool (* changed *)]
  (* src/protos/pulsar.proto:788 message CommandWatchTopicList *)
  | M_CommandWatchTopicList => [mkf 1 Req TU64 (* request_id *);
      mkf 2 Req TU64 (* watcher_id *);
      mkf 3 Req TStr (* namespace *);
      mkf 4 Req TStr (* topics_pattern *);
      mkf 5 Opt TStr (* topics_hash *)]
  (* src/protos/pulsar.proto:797 message CommandWatchTopicListSuccess *)
  | M_CommandWatchTopicListSuccess => [mkf 1 Req TU64 (* request_id *);
      mkf 2 Req TU64 (* watcher_id *);
      mkf 3 Rep TStr (* topic *);
      mkf 4 Req TStr (* topics_hash *)]
  (* src/protos/pulsar.proto:804 message CommandWatchTopicUpdate *)
  | M_CommandWatchTopicUpdate => [mkf 1 Req TU64 (* watcher_id *);
      mkf 2 Rep TStr (* new_topics *);
      mkf 3 Rep TStr (* deleted_topics *);
      mkf 4 Req TStr (* topics_hash *)]
  (* src/protos/pulsar.proto:811 message CommandWatchTopicListClose *)
  | M_CommandWatchTopicListClose => [mkf 1 Req TU64 (* request_id *);
      mkf 2 Req TU64 (* watcher_id *)]
  (* src/protos/pulsar.proto:816 message CommandGetSchema *)
  | M_CommandGetSchema => [mkf 1 Req TU64 (* request_id *);
      mkf 2 Req TStr (* topic *);
      mkf 3 Opt TByt (* schema_version *)]
  (* src/protos/pulsar.proto:823 message CommandGetSchemaResponse *)
  | M_CommandGetSchemaResponse => [mkf 1 Req TU64 (* request_id *);
      mkf 2 Opt (TEnum E_ServerError) (* error_code *);
      mkf 3 Opt TStr (* error_message *);
      mkf 4 Opt (TMsg M_Schema) (* schema *);
      mkf 5 Opt TByt (* schema_version *)]
  (* src/protos/pulsar.proto:832 message CommandGetOrCreateSchema *)
  | M_CommandGetOrCreateSchema => [mkf 1 Req TU64 (* request_id *);
      mkf 2 Req TStr (* topic *);
      mkf 3 Req (TMsg M_Schema) (* schema *)]
  (* src/protos/pulsar.proto:838 message CommandGetOrCreateSchemaResponse *)
  | M_CommandGetOrCreateSchemaResponse => [mkf 1 Req TU64 (* request_id *);
      mkf 2 Opt (TEnum E_ServerError) (* error_code *);
      mkf 3 Opt TStr (* error_message *);
      mkf 4 Opt TByt (* schema_version *)]
  (* src/protos/pulsar.proto:853 message CommandTcClientConnectRequest *)
  | M_CommandTcClientConnectRequest => [mkf 1 Req TU64 (* request_id *);
      mkf 2 Req TU64 (* tc_id *)]
  (* src/protos/pulsar.proto:858 message CommandTcClientConnectResponse *)
  | M_CommandTcClientConnectResponse => [mkf 1 Req TU64 (* request_id *);
      mkf 2 Opt (TEnum E_ServerError) (* error *);
      mkf 3 Opt TStr (* message *)]
  (* src/protos/pulsar.proto:864 message CommandNewTxn *)
  | M_CommandNewTxn => [mkf 1 Req TU64 (* request_id *);
      mkf 2 Opt TU64 (* txn_ttl_seconds *);
      mkf 3 Opt TU64 (* tc_id *)]
  (* src/protos/pulsar.proto:870 message CommandNewTxnResponse *)
  | M_CommandNewTxnResponse => [mkf 1 Req TU64 (* request_id *);
      mkf 2 Opt TU64 (* txnid_least_bits *);
      mkf 3 Opt TU64 (* txnid_most_bits *);
      mkf 4 Opt (TEnum E_ServerError) (* error *);
      mkf 5 Opt TStr (* message *)]
  (* src/protos/pulsar.proto:878 message CommandAddPartitionToTxn *)
  | M_CommandAddPartitionToTxn => [mkf 1 Req TU64 (* request_id *);
      mkf 2 Opt TU64 (* txnid_least_bits *);
      mkf 3 Opt TU64 (* txnid_most_bits *);
      mkf 4 Rep TStr (* partitions *)]
  (* src/protos/pulsar.proto:885 message CommandAddPartitionToTxnResponse *)
  | M_CommandAddPartitionToTxnResponse => [mkf 1 Req TU64 (* request_id *);
      mkf 2 Opt TU64 (* txnid_least_bits *);
      mkf 3 Opt TU64 (* txnid_most_bits *);
      mkf 4 Opt (TEnum E_ServerError) (* error *);
      mkf 5 Opt TStr (* message *)]
  (* src/protos/pulsar.proto:893 message Subscription *)
  | M_Subscription => [mkf 1 Req TStr (* topic *);
      mkf 2 Req TStr (* subscription *)]
  (* src/protos/pulsar.proto:897 message CommandAddSubscriptionToTxn *)
  | M_CommandAddSubscriptionToTxn => [mkf 1 Req TU64 (* request_id *);
      mkf 2 Opt TU64 (* txnid_least_bits *);
      mkf 3 Opt TU64 (* txnid_most_bits *);
      mkf 4 Rep (TMsg M_Subscription) (* subscription *)]
  (* src/protos/pulsar.proto:904 message CommandAddSubscriptionToTxnResponse *)
  | M_CommandAddSubscriptionToTxnResponse => [mkf 1 Req TU64 (* request_id *);
      mkf 2 Opt TU64 (* txnid_least_bits *);
      mkf 3 Opt TU64 (* txnid_most_bits *);
      mkf 4 Opt (TEnum E_ServerError) (* error *);
      mkf 5 Opt TStr (* message *)]
  (* src/protos/pulsar.proto:912 message CommandEndTxn *)
  | M_CommandEndTxn => [mkf 1 Req TU64 (* request_id *);
      mkf 2 Opt TU64 (* txnid_least_bits *);
      mkf 3 Opt TU64 (* txnid_most_bits *);
      mkf 4 Opt (TEnum E_TxnAction) (* txn_action *)]
  (* src/protos/pulsar.proto:919 message CommandEndTxnResponse *)
  | M_CommandEndTxnResponse => [mkf 1 Req TU64 (* request_id *);
      mkf 2 Opt TU64 (* txnid_least_bits *);
      mkf 3 Opt TU64 (* txnid_most_bits *);
      mkf 4 Opt (TEnum E_ServerError) (* error *);
      mkf 5 Opt TStr (* message *)]
  (* src/protos/pulsar.proto:927 message CommandEndTxnOnPartition *)
  | M_CommandEndTxnOnPartition => [mkf 1 Req TU64 (* request_id *);
      mkf 2 Opt TU64 (* txnid_least_bits *);
      mkf 3 Opt TU64 (* txnid_most_bits *);
      mkf 4 Opt TStr (* topic *);
      mkf 5 Opt (TEnum E_TxnAction) (* txn_action *);
      mkf 6 Opt TU64 (* txnid_least_bits_of_low_watermark *)]
  (* src/protos/pulsar.proto:936 message CommandEndTxnOnPartitionResponse *)
  | M_CommandEndTxnOnPartitionResponse => [mkf 1 Req TU64 (* request_id *);
      mkf 2 Opt TU64 (* txnid_least_bits *);
      mkf 3 Opt TU64 (* txnid_most_bits *);
      mkf 4 Opt (TEnum E_ServerError) (* error *);
      mkf 5 Opt TStr (* message *)]
  (* src/protos/pulsar.proto:944 message CommandEndTxnOnSubscription *)
  | M_CommandEndTxnOnSubscription => [mkf 1 Req TU64 (* request_id *);
      mkf 2 Opt TU64 (* txnid_least_bits *);
      mkf 3 Opt TU64 (* txnid_most_bits *);
      mkf 4 Opt (TMsg M_Subscription) (* subscription *);
      mkf 5 Opt (TEnum E_TxnAction) (* txn_action *);
      mkf 6 Opt TU64 (* txnid_least_bits_of_low_watermark *)]
  (* src/protos/pulsar.proto:953 message CommandEndTxnOnSubscriptionResponse *)
  | M_CommandEndTxnOnSubscriptionResponse => [mkf 1 Req TU64 (* request_id *);
      mkf 2 Opt TU64 (* txnid_least_bits *);
      mkf 3 Opt TU64 (* txnid_most_bits *);
      mkf 4 Opt (TEnum E_ServerError) (* error *);
      mkf 5 Opt TStr (* message *)]
  (* src/protos/pulsar.proto:961 message BaseCommand *)
  | M_BaseCommand => [mkf 1 Req (TEnum E_BaseCommand_Type) (* type *);
      mkf 2 Opt (TMsg M_CommandConnect) (* connect *);
      mkf 3 Opt (TMsg M_CommandConnected) (* connected *);
      mkf 4 Opt (TMsg M_CommandSubscribe) (* subscribe *);
      mkf 5 Opt (TMsg M_CommandProducer) (* producer *);
      mkf 6 Opt (TMsg M_CommandSend) (* send *);
      mkf 7 Opt (TMsg M_CommandSendReceipt) (* send_receipt *);
      mkf 8 Opt (TMsg M_CommandSendError) (* send_error *);
      mkf 9 Opt (TMsg M_CommandMessage) (* message *);
      mkf 10 Opt (TMsg M_CommandAck) (* ack *);
      mkf 11 Opt (TMsg M_CommandFlow) (* flow *);
      mkf 12 Opt (TMsg M_CommandUnsubscribe) (* unsubscribe *);
      mkf 13 Opt (TMsg M_CommandSuccess) (* success *);
      mkf 14 Opt (TMsg M_CommandError) (* error *);
      mkf 15 Opt (TMsg M_CommandCloseProducer) (* close_producer *);
      mkf 16 Opt (TMsg M_CommandCloseConsumer) (* close_consumer *);
      mkf 17 Opt (TMsg M_CommandProducerSuccess) (* producer_success *);
      mkf 18 Opt (TMsg M_CommandPing) (* ping *);
      mkf 19 Opt (TMsg M_CommandPong) (* pong *);
      mkf 20 Opt (TMsg M_CommandRedeliverUnacknowledgedMessages) (* redeliverUnacknowledgedMessages *);
      mkf 21 Opt (TMsg M_CommandPartitionedTopicMetadata) (* partitionMetadata *);
      mkf 22 Opt (TMsg M_CommandPartitionedTopicMetadataResponse) (* partitionMetadataResponse *);
      mkf 23 Opt (TMsg M_CommandLookupTopic) (* lookupTopic *);
      mkf 24 Opt (TMsg M_CommandLookupTopicResponse) (* lookupTopicResponse *);
      mkf 25 Opt (TMsg M_CommandConsumerStats) (* consumerStats *);
      mkf 26 Opt (TMsg M_CommandConsumerStatsResponse) (* consumerStatsResponse *);
      mkf 27 Opt (TMsg M_CommandReachedEndOfTopic) (* reachedEndOfTopic *);
      mkf 28 Opt (TMsg M_CommandSeek) (* seek *);
      mkf 29 Opt (TMsg M_CommandGetLastMessageId) (* getLastMessageId *);
      mkf 30 Opt (TMsg M_CommandGetLastMessageIdResponse) (* getLastMessageIdResponse *);
      mkf 31 Opt (TMsg M_CommandActiveConsumerChange) (* active_consumer_change *);
      mkf 32 Opt (TMsg M_CommandGetTopicsOfNamespace) (* getTopicsOfNamespace *);
      mkf 33 Opt (TMsg M_CommandGetTopicsOfNamespaceResponse) (* getTopicsOfNamespaceResponse *);
      mkf 34 Opt (TMsg M_CommandGetSchema) (* getSchema *);
      mkf 35 Opt (TMsg M_CommandGetSchemaResponse) (* getSchemaResponse *);
      mkf 36 Opt (TMsg M_CommandAuthChallenge) (* authChallenge *);
      mkf 37 Opt (TMsg M_CommandAuthResponse) (* authResponse *);
      mkf 38 Opt (TMsg M_CommandAckResponse) (* ackResponse *);
      mkf 39 Opt (TMsg M_CommandGetOrCreateSchema) (* getOrCreateSchema *);
      mkf 40 Opt (TMsg M_CommandGetOrCreateSchemaResponse) (* getOrCreateSchemaResponse *);
      mkf 50 Opt (TMsg M_CommandNewTxn) (* newTxn *);
      mkf 51 Opt (TMsg M_CommandNewTxnResponse) (* newTxnResponse *);
      mkf 52 Opt (TMsg M_CommandAddPartitionToTxn) (* addPartitionToTxn *);
      mkf 53 Opt (TMsg M_CommandAddPartitionToTxnResponse) (* addPartitionToTxnResponse *);
      mkf 54 Opt (TMsg M_CommandAddSubscriptionToTxn) (* addSubscriptionToTxn *);
      mkf 55 Opt (TMsg M_CommandAddSubscriptionToTxnResponse) (* addSubscriptionToTxnResponse *);
      mkf 56 Opt (TMsg M_CommandEndTxn) (* endTxn *);
      mkf 57 Opt (TMsg M_CommandEndTxnResponse) (* endTxnResponse *);
      mkf 58 Opt (TMsg M_CommandEndTxnOnPartition) (* endTxnOnPartition *);
      mkf 59 Opt (TMsg M_CommandEndTxnOnPartitionResponse) (* endTxnOnPartitionResponse *);
      mkf 60 Opt (TMsg M_CommandEndTxnOnSubscription) (* endTxnOnSubscription *);
      mkf 61 Opt (TMsg M_CommandEndTxnOnSubscriptionResponse) (* endTxnOnSubscriptionResponse *);
      mkf 62 Opt (TMsg M_CommandTcClientConnectRequest) (* tcClientConnectRequest *);
      mkf 63 Opt (TMsg M_CommandTcClientConnectResponse) (* tcClientConnectResponse *);
      mkf 64 Opt (TMsg M_CommandWatchTopicList) (* watchTopicList *);
      mkf 65 Opt (TMsg M_CommandWatchTopicListSuccess) (* watchTopicListSuccess *);
      mkf 66 Opt (TMsg M_CommandWatchTopicUpdate) (* watchTopicUpdate *);
      mkf 67 Opt (TMsg M_CommandWatchTopicListClose) (* watchTopicListClose *);
      mkf 68 Opt (TMsg M_CommandTopicMigrated) (* topicMigrated *)]
  end.
(** Declared values of each enum, first one first (the proto2 default). *)
Definition enum_values (e : ename) : list Z :=
  match e with
  (* src/protos/pulsar.proto:26 enum Schema_Type: None=0, String=1, Json=2, Protobuf=3, Avro=4, Bool=5, Int8=6, Int16=7, Int32=8, Int64=9, Float=10, Double=11, Date=12, Time=13, Timestamp=14, KeyValue=15, Instant=16, LocalDate=17, LocalTime=18, LocalDateTime=19, ProtobufNative=20, AutoConsume=21 *)
  | E_Schema_Type => [0%Z; 1%Z; 2%Z; 3%Z; 4%Z; 5%Z; 6%Z; 7%Z; 8%Z; 9%Z; 10%Z; 11%Z; 12%Z; 13%Z; 14%Z; 15%Z; 16%Z; 17%Z; 18%Z; 19%Z; 20%Z; 21%Z]
  (* src/protos/pulsar.proto:91 enum CompressionType: NONE=0, LZ4=1, ZLIB=2, ZSTD=3, SNAPPY=4 *)
  | E_CompressionType => [0%Z; 1%Z; 2%Z; 3%Z; 4%Z]
  (* src/protos/pulsar.proto:99 enum ProducerAccessMode: Shared=0, Exclusive=1, WaitForExclusive=2, ExclusiveWithFencing=3 *)
  | E_ProducerAccessMode => [0%Z; 1%Z; 2%Z; 3%Z]
  (* src/protos/pulsar.proto:194 enum ServerError: UnknownError=0, MetadataError=1, PersistenceError=2, AuthenticationError=3, AuthorizationError=4, ConsumerBusy=5, ServiceNotReady=6, ProducerBlockedQuotaExceededError=7, ProducerBlockedQuotaExceededException=8, ChecksumError=9, UnsupportedVersionError=10, TopicNotFound=11, SubscriptionNotFound=12, ConsumerNotFound=13, TooManyRequests=14, TopicTerminatedError=15, ProducerBusy=16, InvalidTopicName=17, IncompatibleSchema=18, ConsumerAssignError=19, TransactionCoordinatorNotFound=20, InvalidTxnStatus=21, NotAllowedError=22, TransactionConflict=23, TransactionNotFound=24, ProducerFenced=25 *)
  | E_ServerError => [0%Z; 1%Z; 2%Z; 3%Z; 4%Z; 5%Z; 6%Z; 7%Z; 8%Z; 9%Z; 10%Z; 11%Z; 12%Z; 13%Z; 14%Z; 15%Z; 16%Z; 17%Z; 18%Z; 19%Z; 20%Z; 21%Z; 22%Z; 23%Z; 24%Z; 25%Z]
  (* src/protos/pulsar.proto:234 enum AuthMethod: AuthMethodNone=0, AuthMethodYcaV1=1, AuthMethodAthens=2 *)
  | E_AuthMethod => [0%Z; 1%Z; 2%Z]
  (* src/protos/pulsar.proto:242 enum ProtocolVersion: v0=0, v1=1, v2=2, v3=3, v4=4, v5=5, v6=6, v7=7, v8=8, v9=9, v10=10, v11=11, v12=12, v13=13, v14=14, v15=15, v16=16, v17=17, v18=18, v19=19, v20=20, v21=21 *)
  | E_ProtocolVersion => [0%Z; 1%Z; 2%Z; 3%Z; 4%Z; 5%Z; 6%Z; 7%Z; 8%Z; 9%Z; 10%Z; 11%Z; 12%Z; 13%Z; 14%Z; 15%Z; 16%Z; 17%Z; 18%Z; 19%Z; 20%Z; 21%Z]
  (* src/protos/pulsar.proto:330 enum KeySharedMode: AUTO_SPLIT=0, STICKY=1 *)
  | E_KeySharedMode => [0%Z; 1%Z]
  (* src/protos/pulsar.proto:342 enum CommandSubscribe_SubType: Exclusive=0, Shared=1, Failover=2, Key_Shared=3 *)
  | E_CommandSubscribe_SubType => [0%Z; 1%Z; 2%Z; 3%Z]
  (* src/protos/pulsar.proto:372 enum CommandSubscribe_InitialPosition: Latest=0, Earliest=1 *)
  | E_CommandSubscribe_InitialPosition => [0%Z; 1%Z]
  (* src/protos/pulsar.proto:419 enum CommandPartitionedTopicMetadataResponse_LookupType: Success=0, Failed=1 *)
  | E_CommandPartitionedTopicMetadataResponse_LookupType => [0%Z; 1%Z]
  (* src/protos/pulsar.proto:449 enum CommandLookupTopicResponse_LookupType: Redirect=0, Connect=1, Failed=2 *)
  | E_CommandLookupTopicResponse_LookupType => [0%Z; 1%Z; 2%Z]
  (* src/protos/pulsar.proto:554 enum CommandAck_AckType: Individual=0, Cumulative=1 *)
  | E_CommandAck_AckType => [0%Z; 1%Z]
  (* src/protos/pulsar.proto:568 enum CommandAck_ValidationError: UncompressedSizeCorruption=0, DecompressionError=1, ChecksumMismatch=2, BatchDeSerializeError=3, DecryptionError=4 *)
  | E_CommandAck_ValidationError => [0%Z; 1%Z; 2%Z; 3%Z; 4%Z]
  (* src/protos/pulsar.proto:630 enum CommandTopicMigrated_ResourceType: Producer=0, Consumer=1 *)
  | E_CommandTopicMigrated_ResourceType => [0%Z; 1%Z]
  (* src/protos/pulsar.proto:765 enum CommandGetTopicsOfNamespace_Mode: PERSISTENT=0, NON_PERSISTENT=1, ALL=2 *)
  | E_CommandGetTopicsOfNamespace_Mode => [0%Z; 1%Z; 2%Z]
  (* src/protos/pulsar.proto:848 enum TxnAction: COMMIT=0, ABORT=1 *)
  | E_TxnAction => [0%Z; 1%Z]
  (* src/protos/pulsar.proto:962 enum BaseCommand_Type: CONNECT=2, CONNECTED=3, SUBSCRIBE=4, PRODUCER=5, SEND=6, SEND_RECEIPT=7, SEND_ERROR=8, MESSAGE=9, ACK=10, FLOW=11, UNSUBSCRIBE=12, SUCCESS=13, ERROR=14, CLOSE_PRODUCER=15, CLOSE_CONSUMER=16, PRODUCER_SUCCESS=17, PING=18, PONG=19, REDELIVER_UNACKNOWLEDGED_MESSAGES=20, PARTITIONED_METADATA=21, PARTITIONED_METADATA_RESPONSE=22, LOOKUP=23, LOOKUP_RESPONSE=24, CONSUMER_STATS=25, CONSUMER_STATS_RESPONSE=26, REACHED_END_OF_TOPIC=27, SEEK=28, GET_LAST_MESSAGE_ID=29, GET_LAST_MESSAGE_ID_RESPONSE=30, ACTIVE_CONSUMER_CHANGE=31, GET_TOPICS_OF_NAMESPACE=32, GET_TOPICS_OF_NAMESPACE_RESPONSE=33, GET_SCHEMA=34, GET_SCHEMA_RESPONSE=35, AUTH_CHALLENGE=36, AUTH_RESPONSE=37, ACK_RESPONSE=38, GET_OR_CREATE_SCHEMA=39, GET_OR_CREATE_SCHEMA_RESPONSE=40, NEW_TXN=50, NEW_TXN_RESPONSE=51, ADD_PARTITION_TO_TXN=52, ADD_PARTITION_TO_TXN_RESPONSE=53, ADD_SUBSCRIPTION_TO_TXN=54, ADD_SUBSCRIPTION_TO_TXN_RESPONSE=55, END_TXN=56, END_TXN_RESPONSE=57, END_TXN_ON_PARTITION=58, END_TXN_ON_PARTITION_RESPONSE=59, END_TXN_ON_SUBSCRIPTION=60, END_TXN_ON_SUBSCRIPTION_RESPONSE=61, TC_CLIENT_CONNECT_REQUEST=62, TC_CLIENT_CONNECT_RESPONSE=63, WATCH_TOPIC_LIST=64, WATCH_TOPIC_LIST_SUCCESS=65, WATCH_TOPIC_UPDATE=66, WATCH_TOPIC_LIST_CLOSE=67, TOPIC_MIGRATED=68 *)
  | E_BaseCommand_Type => [2%Z; 3%Z; 4%Z; 5%Z; 6%Z; 7%Z; 8%Z; 9%Z; 10%Z; 11%Z; 12%Z; 13%Z; 14%Z; 15%Z; 16%Z; 17%Z; 18%Z; 19%Z; 20%Z; 21%Z; 22%Z; 23%Z; 24%Z; 25%Z; 26%Z; 27%Z; 28%Z; 29%Z; 30%Z; 31%Z; 32%Z; 33%Z; 34%Z; 35%Z; 36%Z; 37%Z; 38%Z; 39%Z; 40%Z; 50%Z; 51%Z; 52%Z; 53%Z; 54%Z; 55%Z; 56%Z; 57%Z; 58%Z; 59%Z; 60%Z; 61%Z; 62%Z; 63%Z; 64%Z; 65%Z; 66%Z; 67%Z; 68%Z]
  end.
