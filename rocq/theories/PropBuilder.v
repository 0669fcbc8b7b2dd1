(** C67: the builders use the last value given of each kind, in any order. *)
From Verif Require Import Bytes Errors Address Message Client SpecClient PropClient Builder.
Open Scope N_scope.

(** Nothing of this kind was given; the last one given was [v]. *)
Definition never {C A} (f : C -> option A) (cs : list C) : Prop := forall c, In c cs -> f c = None.
Definition finally {C A} (f : C -> option A) (cs : list C) (v : A) : Prop := exists l1 c l2, cs = l1 ++ c :: l2 /\ f c = Some v /\ never f l2.
Definition given_name {P} (c : ccall P) := match c with WithConsumerName n => Some n | _ => None end.
Definition given_topic {P} (c : ccall P) := match c with WithTopic n => Some n | _ => None end.
Definition given_sub {P} (c : ccall P) := match c with WithSubscription n => Some n | _ => None end.
Definition given_plugin {P} (c : ccall P) := match c with AddPlugin p => Some p | _ => None end.

Definition track {C A} (f : C -> option A) (v : option A) (c : C) : option A := match f c with Some x => Some x | None => v end.
Lemma track_spec {C A} (f : C -> option A) cs :
  (fold_left (track f) cs None = None <-> never f cs) /\ forall v, fold_left (track f) cs None = Some v <-> finally f cs v.
Proof.
  induction cs as [|c cs [IH1 IH2]] using rev_ind.
  - split; [split; [intros _ c []|reflexivity]|]. intros v. split; [discriminate|]. intros (l1 & c & l2 & X & _). now destruct l1.
  - rewrite fold_left_app. cbn [fold_left]. unfold track at 1 3. destruct (f c) as [x|] eqn:F.
    + split.
      * split; [discriminate|]. intros N. rewrite (N c) in F; [discriminate|]. apply in_app_iff. right. now left.
      * intros v. split.
        -- intros [= <-]. exists cs, c, []. split; auto. split; auto. intros ? [].
        -- intros (l1 & c' & l2 & X & Y & Z). destruct l2 as [|y l2] using rev_ind.
           ++ apply app_inj_tail in X as [_ <-]. congruence.
           ++ rewrite app_comm_cons, app_assoc in X. apply app_inj_tail in X as [_ <-]. rewrite (Z c) in F; [discriminate|]. apply in_app_iff. right. now left.
    + split.
      * rewrite IH1. split; intros N c' Hc; [|apply N; apply in_app_iff; auto]. apply in_app_iff in Hc as [Hc|[<-|[]]]; auto.
      * intros v. rewrite IH2. split.
        -- intros (l1 & c' & l2 & -> & Y & Z). exists l1, c', (l2 ++ [c]). split; [now rewrite <- app_assoc|]. split; auto.
           intros x Hx. apply in_app_iff in Hx as [Hx|[<-|[]]]; auto.
        -- intros (l1 & c' & l2 & X & Y & Z). destruct l2 as [|y l2] using rev_ind.
           ++ apply app_inj_tail in X as [_ <-]. congruence.
           ++ clear IHl2. rewrite app_comm_cons, app_assoc in X. apply app_inj_tail in X as [-> <-]. exists l1, c', l2. split; auto. split; auto.
              intros x Hx. apply Z. apply in_app_iff. auto.
Qed.
Lemma cb_fields {P} (cs : list (ccall P)) :
  cb_name (cb_of cs) = fold_left (track given_name) cs None /\ cb_topic (cb_of cs) = fold_left (track given_topic) cs None /\
  cb_sub (cb_of cs) = fold_left (track given_sub) cs None /\
  cb_plugins (cb_of cs) = flat_map (fun c => match given_plugin c with Some p => [p] | None => [] end) cs.
Proof.
  induction cs as [|c cs (I1 & I2 & I3 & I4)] using rev_ind; [repeat split|]. unfold cb_of in *. rewrite !fold_left_app, flat_map_app. cbn [fold_left flat_map].
  rewrite <- I1, <- I2, <- I3, <- I4. destruct c; cbn; rewrite ?app_nil_r; repeat split; reflexivity.
Qed.
(** Without a name, a topic or a subscription connect panics, and has done nothing:
    no id taken, nothing registered, nothing sent. *)
Theorem C67_consumer_missing : forall P (cs : list (ccall P)),
  (never given_name cs \/ never given_topic cs \/ never given_sub cs <-> forall id reg rs, cb_connect (cb_of cs) id reg rs = ([], Some Panic)) /\
  (never given_name cs \/ never given_topic cs \/ never given_sub cs \/
   exists name topic sub, finally given_name cs name /\ finally given_topic cs topic /\ finally given_sub cs sub).
Proof.
  intros P cs. destruct (cb_fields cs) as (I1 & I2 & I3 & _). unfold cb_connect. rewrite I1, I2, I3.
  destruct (track_spec given_name cs) as [N1 F1], (track_spec given_topic cs) as [N2 F2], (track_spec given_sub cs) as [N3 F3].
  rewrite <- N1, <- N2, <- N3. destruct (fold_left (track given_name) cs None) as [name|]; [|split; [split; auto|auto]].
  destruct (fold_left (track given_topic) cs None) as [topic|]; [|split; [split; auto|auto]].
  destruct (fold_left (track given_sub) cs None) as [sub|]; [|split; [split; auto|auto]]. split.
  - split; [intros [X|[X|X]]; discriminate|]. intros X. specialize (X 0 None []). discriminate.
  - right. right. right. exists name, topic, sub. split; [now apply F1|]. split; [now apply F2|now apply F3].
Qed.
(** Otherwise it takes one id, registers once, for the topic given last; a failure
    there is its result; then it makes the handshake of C20 for the last topic and
    subscription with that id and 250 permits. The plugins are those given, in order. *)
Theorem C67_consumer_uses_last : forall P (cs : list (ccall P)) name topic sub id rs,
  finally given_name cs name -> finally given_topic cs topic -> finally given_sub cs sub ->
  (forall reg, reg <> Some (Ok tt) -> cb_connect (cb_of cs) id reg rs = ([BNewId; BRegister topic id], reg)) /\
  (let path := consumer_path id topic sub 250 (asks_proxy rs) in
   let (acts, res) := cb_connect (cb_of cs) id (Some (Ok tt)) rs in
   let (made, wres) := walk path rs in acts = BNewId :: BRegister topic id :: map BRequest made /\ res = wres) /\
  cb_plugins (cb_of cs) = flat_map (fun c => match given_plugin c with Some p => [p] | None => [] end) cs.
Proof.
  intros P cs name topic sub id rs H1 H2 H3. destruct (cb_fields cs) as (I1 & I2 & I3 & I4).
  apply track_spec in H1, H2, H3. unfold cb_connect. rewrite I1, I2, I3, H1, H2, H3. split; [|split; [|exact I4]].
  - intros reg Hr. unfold builder_run. destruct reg as [[[]| |]|]; auto. congruence.
  - cbn zeta. unfold builder_run. rewrite C20_consumer_handshake. unfold consumer_path, default_permits.
    destruct (asks_proxy rs) as [t|]; destruct (walk _ rs) as [made wres]; auto.
Qed.
(** So the name of a consumer makes no difference: the broker is never told. *)
Theorem C67_consumer_name_not_sent : forall P (cs cs' : list (ccall P)) name name' topic sub id reg rs,
  finally given_name cs name -> finally given_topic cs topic -> finally given_sub cs sub ->
  finally given_name cs' name' -> finally given_topic cs' topic -> finally given_sub cs' sub ->
  cb_connect (cb_of cs) id reg rs = cb_connect (cb_of cs') id reg rs.
Proof.
  intros P cs cs' name name' topic sub id reg rs H1 H2 H3 H1' H2' H3'. destruct (cb_fields cs) as (I1 & I2 & I3 & _), (cb_fields cs') as (I1' & I2' & I3' & _).
  apply track_spec in H1, H2, H3, H1', H2', H3'. unfold cb_connect. rewrite I1, I2, I3, I1', I2', I3', H1, H2, H3, H1', H2', H3'.
  unfold builder_run. now rewrite !C20_consumer_handshake.
Qed.
Print Assumptions C67_consumer_missing.
Print Assumptions C67_consumer_uses_last.
Print Assumptions C67_consumer_name_not_sent.

(** ** Producers *)
Definition given_pname (c : ppcall) := match c with WithProducerName n => Some n | _ => None end.
Definition given_ptopic (c : ppcall) := match c with WithProducerTopic n => Some n | _ => None end.
Lemma pb_fields cs : pb_name (pb_of cs) = fold_left (track given_pname) cs None /\ pb_topic (pb_of cs) = fold_left (track given_ptopic) cs None.
Proof.
  induction cs as [|c cs (I1 & I2)] using rev_ind; [split; reflexivity|]. unfold pb_of in *. rewrite !fold_left_app. cbn [fold_left].
  rewrite <- I1, <- I2. destruct c; split; reflexivity.
Qed.
Theorem C67_producer_missing : forall cs,
  (never given_pname cs \/ never given_ptopic cs <-> forall id reg rs, pb_connect (pb_of cs) id reg rs = ([], Some Panic)) /\
  (never given_pname cs \/ never given_ptopic cs \/ exists name topic, finally given_pname cs name /\ finally given_ptopic cs topic).
Proof.
  intros cs. destruct (pb_fields cs) as (I1 & I2). unfold pb_connect. rewrite I1, I2.
  destruct (track_spec given_pname cs) as [N1 F1], (track_spec given_ptopic cs) as [N2 F2].
  rewrite <- N1, <- N2. destruct (fold_left (track given_pname) cs None) as [name|]; [|split; [split; auto|auto]].
  destruct (fold_left (track given_ptopic) cs None) as [topic|]; [|split; [split; auto|auto]]. split.
  - split; [intros [X|X]; discriminate|]. intros X. specialize (X 0 None []). discriminate.
  - right. right. exists name, topic. split; [now apply F1|now apply F2].
Qed.
Definition producer_path id name topic (proxy : option bytes) : list step :=
  match proxy with
  | None => direct_steps topic ++ producer_steps id name topic 1
  | Some target => proxied_steps topic target ++ producer_steps id name topic 2
  end.
Theorem C67_producer_uses_last : forall cs name topic id rs,
  finally given_pname cs name -> finally given_ptopic cs topic ->
  (forall reg, reg <> Some (Ok tt) -> pb_connect (pb_of cs) id reg rs = ([BNewId; BRegister topic id], reg)) /\
  (let path := producer_path id name topic (asks_proxy rs) in
   let (acts, res) := pb_connect (pb_of cs) id (Some (Ok tt)) rs in
   let (made, wres) := walk path rs in acts = BNewId :: BRegister topic id :: map BRequest made /\ res = wres).
Proof.
  intros cs name topic id rs H1 H2. destruct (pb_fields cs) as (I1 & I2).
  apply track_spec in H1, H2. unfold pb_connect. rewrite I1, I2, H1, H2. split.
  - intros reg Hr. unfold builder_run. destruct reg as [[[]| |]|]; auto. congruence.
  - cbn zeta. unfold builder_run. rewrite C20_producer_handshake. unfold producer_path.
    destruct (asks_proxy rs) as [t|]; destruct (walk _ rs) as [made wres]; auto.
Qed.
(** ** The instance *)
Definition given_config {A} (c : ecall A) := match c with WithConfig x => Some x | _ => None end.
Definition given_auth {A} (c : ecall A) := match c with WithAuthPlugin x => Some x | _ => None end.
Theorem C67_pulsar_builder : forall A (cs : list (ecall A)),
  (eb_build (eb_of cs) = Panic <-> never given_config cs) /\
  (forall c a, eb_build (eb_of cs) = Ok (c, Some a) <-> finally given_config cs c /\ finally given_auth cs a) /\
  (forall c, eb_build (eb_of cs) = Ok (c, None) <-> finally given_config cs c /\ never given_auth cs).
Proof.
  intros A cs. assert (I : eb_config (eb_of cs) = fold_left (track given_config) cs None /\ eb_auth (eb_of cs) = fold_left (track given_auth) cs None).
  { induction cs as [|c cs (I1 & I2)] using rev_ind; [split; reflexivity|]. unfold eb_of in *. rewrite !fold_left_app. cbn [fold_left].
    rewrite <- I1, <- I2. destruct c; split; reflexivity. }
  destruct I as [I1 I2]. unfold eb_build. rewrite I1, I2. destruct (track_spec given_config cs) as [N1 F1], (track_spec given_auth cs) as [N2 F2].
  split; [|split].
  - rewrite <- N1. destruct (fold_left (track given_config) cs None); split; congruence.
  - intros c a. rewrite <- F1, <- F2. destruct (fold_left (track given_config) cs None); [|split; [discriminate|intros [X _]; discriminate]].
    split; [intros [= -> ->]; auto|intros [[= ->] ->]; reflexivity].
  - intros c. rewrite <- F1, <- N2. destruct (fold_left (track given_config) cs None); [|split; [discriminate|intros [X _]; discriminate]].
    split; [intros [= -> ->]; auto|intros [[= ->] ->]; reflexivity].
Qed.
Print Assumptions C67_producer_missing.
Print Assumptions C67_producer_uses_last.
Print Assumptions C67_pulsar_builder.
(** A topic set twice, a name set last; everything answered. *)
Definition x_calls : list (ccall nat) := [WithTopic (str "old"); AddPlugin 1%nat; WithSubscription (str "s"); WithTopic (str "t"); AddPlugin 2%nat; WithConsumerName (str "c")].
Example C67_meets : finally given_name x_calls (str "c") /\ finally given_topic x_calls (str "t") /\ finally given_sub x_calls (str "s") /\
  cb_plugins (cb_of x_calls) = [1%nat; 2%nat] /\
  cb_connect (cb_of x_calls) 7 (Some (Ok tt)) [Resolved InConnected; Resolved (InLookup (mk_lookup 0 (str "u") [] LConnect false false)); Resolved (InSuccess 1); Resolved InPong] =
    ([BNewId; BRegister (str "t") 7; BRequest (OConnect (mk_connect None None None)); BRequest (OLookup 0 (str "t"));
      BRequest (OSubscribe (str "t") (str "s") 7 1 Shared); BRequest (OFlow 7 500)], Some (Ok tt)) /\
  never given_name (firstn 5 x_calls).
Proof.
  split; [exists (firstn 5 x_calls), (WithConsumerName (str "c")), []; split; [reflexivity|split; [reflexivity|intros ? []]]|].
  split; [exists (firstn 3 x_calls), (WithTopic (str "t")), (skipn 4 x_calls); split; [reflexivity|split; [reflexivity|intros c [<-|[<-|[]]]; reflexivity]]|].
  split; [exists (firstn 2 x_calls), (WithSubscription (str "s")), (skipn 3 x_calls); split; [reflexivity|split; [reflexivity|intros c [<-|[<-|[<-|[]]]]; reflexivity]]|].
  split; [reflexivity|]. split; [vm_compute; reflexivity|]. intros c H. cbn in H. repeat (destruct H as [<-|H]; [reflexivity|]). destruct H.
Qed.
