(** Model of the builders: src/consumer.rs:303-389, src/producer.rs:115-184,
    src/pulsar.rs:339-385. *)
From Verif Require Import Bytes Errors Address Message Client.
Open Scope N_scope.

(** src/consumer.rs:303-312, [ConsumerBuilder]; a plugin is anything. *)
Record cbuilder (P : Type) := mk_cb { cb_plugins : list P; cb_name : option bytes; cb_topic : option bytes; cb_sub : option bytes }.
Arguments mk_cb {P}. Arguments cb_plugins {P}. Arguments cb_name {P}. Arguments cb_topic {P}. Arguments cb_sub {P}.
(** src/consumer.rs:336-357, the methods that configure it. *)
Inductive ccall (P : Type) := WithConsumerName (n : bytes) | WithTopic (t : bytes) | WithSubscription (s : bytes) | AddPlugin (p : P).
Arguments WithConsumerName {P}. Arguments WithTopic {P}. Arguments WithSubscription {P}. Arguments AddPlugin {P}.
(** src/consumer.rs:327-334, [new]. *)
Definition cb_new {P} : cbuilder P := mk_cb [] None None None.
Definition cb_step {P} (b : cbuilder P) (c : ccall P) : cbuilder P :=
  match c with
  | WithConsumerName n => mk_cb (cb_plugins b) (Some n) (cb_topic b) (cb_sub b)
  | WithTopic t => mk_cb (cb_plugins b) (cb_name b) (Some t) (cb_sub b)
  | WithSubscription s => mk_cb (cb_plugins b) (cb_name b) (cb_topic b) (Some s)
  | AddPlugin p => mk_cb (cb_plugins b ++ [p]) (cb_name b) (cb_topic b) (cb_sub b)
  end.
Definition cb_of {P} (cs : list (ccall P)) : cbuilder P := fold_left cb_step cs cb_new.

(** What [connect] does: take a new client id, register, make requests. *)
Inductive bact := BNewId | BRegister (topic : bytes) (id : N) | BRequest (o : outbound).
(** src/consumer.rs:359-389 and src/producer.rs:158-184 after the unwraps: [id] is
    the id the manager gives, [reg] the result of registering if there is one yet,
    [rs] the replies to the requests. *)
Definition builder_run (topic : bytes) (id : N) (reg : option (outcome unit)) (p : prog) (rs : list reply) : list bact * option (outcome unit) :=
  match reg with
  | Some (Ok _) => let (l, x) := exec p rs in (BNewId :: BRegister topic id :: map BRequest l, x)
  | r => ([BNewId; BRegister topic id], r)
  end.
(** src/consumer.rs:359-389: unwraps first; also the plugins the consumer has. *)
Definition cb_connect {P} (b : cbuilder P) (id : N) (reg : option (outcome unit)) (rs : list reply) : list bact * option (outcome unit) :=
  match cb_name b with
  | None => ([], Some Panic)
  | Some name =>
      match cb_topic b with
      | None => ([], Some Panic)
      | Some topic =>
          match cb_sub b with
          | None => ([], Some Panic)
          | Some sub => builder_run topic id reg (consumer_connect id name topic sub default_permits fresh) rs
          end
      end
  end.

(** src/producer.rs:115-156, [ProducerBuilder]. *)
Record pbuilder := mk_pb { pb_name : option bytes; pb_topic : option bytes }.
Inductive ppcall := WithProducerName (n : bytes) | WithProducerTopic (t : bytes).
Definition pb_new : pbuilder := mk_pb None None.
Definition pb_step (b : pbuilder) (c : ppcall) : pbuilder :=
  match c with
  | WithProducerName n => mk_pb (Some n) (pb_topic b)
  | WithProducerTopic t => mk_pb (pb_name b) (Some t)
  end.
Definition pb_of (cs : list ppcall) : pbuilder := fold_left pb_step cs pb_new.
(** src/producer.rs:158-184. *)
Definition pb_connect (b : pbuilder) (id : N) (reg : option (outcome unit)) (rs : list reply) : list bact * option (outcome unit) :=
  match pb_name b with
  | None => ([], Some Panic)
  | Some name =>
      match pb_topic b with
      | None => ([], Some Panic)
      | Some topic => builder_run topic id reg (producer_connect id name topic fresh) rs
      end
  end.

(** src/pulsar.rs:339-385, [PulsarBuilder]; [A]: authentication plugins. [build]
    gives the configuration and the plugin of the instance, or panics. *)
Record ebuilder (A : Type) := mk_eb { eb_config : option config; eb_auth : option A }.
Arguments mk_eb {A}. Arguments eb_config {A}. Arguments eb_auth {A}.
Inductive ecall (A : Type) := WithConfig (c : config) | WithAuthPlugin (a : A).
Arguments WithConfig {A}. Arguments WithAuthPlugin {A}.
Definition eb_step {A} (b : ebuilder A) (c : ecall A) : ebuilder A :=
  match c with WithConfig x => mk_eb (Some x) (eb_auth b) | WithAuthPlugin a => mk_eb (eb_config b) (Some a) end.
Definition eb_of {A} (cs : list (ecall A)) : ebuilder A := fold_left eb_step cs (mk_eb None None).
Definition eb_build {A} (b : ebuilder A) : outcome (config * option A) :=
  match eb_config b with Some c => Ok (c, eb_auth b) | None => Panic end.
