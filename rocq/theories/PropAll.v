(** C79: send_all and ack_all through the engine. *)
From Verif Require Import Bytes Errors Wire Proto Codec SpecFrame SpecCodec Address Message SpecMessage Client SpecKeys SpecClient Producer Consumer SpecConsumer Engine SpecEngine SpecEngine2 Sink SpecStack SpecAnswered SpecLoop SpecAll ConsumerFacts SinkFacts EngineFacts EngineInv EngineReq EngineEv EngineConn EngineLog EngineView EngineQueue EngineRoute EngineNet EngineEx SpecTurn TurnFacts CodecFacts MessageFacts PropCodec PropMessage PropClient PropProducer PropConsumer PropEngine PropEngine2 PropEngine6 PropStack PropReceipt PropRoute PropDeliver PropSends PropReads PropAnswered PropLoop.
Open Scope N_scope.

Lemma part_subseq {A} (a b : list A) : part a b <-> subseq a b.
Proof. split; induction 1; constructor; auto. Qed.
Lemma sends_numbered name id datas : forall q, sends_from name id q datas = numbered_sends name id q datas.
Proof. induction datas as [|d r IH]; intros q; [reflexivity|]. cbn. now rewrite IH. Qed.
Lemma acks_numbered id mids : forall q, acks_from id q mids = numbered_acks id q mids.
Proof. induction mids as [|d r IH]; intros q; [reflexivity|]. cbn. now rewrite IH. Qed.
Lemma serialised_somes T (ser : T -> option bytes) ms : serialised ser ms = somes (map ser ms).
Proof. induction ms as [|m r IH]; [reflexivity|]. unfold serialised in *. cbn. rewrite IH. now destruct (ser m). Qed.
Lemma sends_length name id datas : forall q, length (sends_from name id q datas) = length datas.
Proof. induction datas as [|d r IH]; intros q; [reflexivity|]. cbn [sends_from length]. now rewrite IH. Qed.
Lemma acks_length id mids : forall q, length (acks_from id q mids) = length mids.
Proof. induction mids as [|d r IH]; intros q; [reflexivity|]. cbn [acks_from length]. now rewrite IH. Qed.
Lemma came_settled l n : came_to l n <> None <-> In n (settled l).
Proof.
  induction l as [|x l IH]; [cbn; tauto|]. change (settled (x :: l)) with ((match x with OAnswer n _ _ => [n] | OCancel n => [n] | _ => [] end) ++ settled l). rewrite in_app_iff, <- IH.
  destruct x as [| | | | | | | | | |m ser i|m| | | | | | |]; cbn [came_to In]; try tauto; destruct (Nat.eqb_spec m n) as [->|N]; split; intros X; try tauto; try congruence; auto; discriminate.
Qed.
Lemma all_came l ns : (~ In (Queued None) (fates l ns)) <-> forall n, In n ns -> In n (settled l).
Proof.
  unfold fates. split.
  - intros X n Hn. apply came_settled. intros Y. apply X. apply in_map_iff. exists n. now rewrite Y.
  - intros X Y. apply in_map_iff in Y as (n & Y & Hn). injection Y as Y. revert Y. now apply came_settled, X.
Qed.
(** A request is cancelled only when the engine ends or another one of its kind is taken
    meanwhile. *)
Lemma settled_answered E h s k n o : reach E h s -> ~ In OStop (s_log s) -> no_collision_of k (s_log s) -> requested (s_log s) n o -> kind_of o = Some k -> In n (settled (s_log s)) ->
  exists ser i, In (OAnswer n ser i) (s_log s).
Proof.
  intros H Ns Nc Rq K St. apply settled_in in St as [A|C]; [exact A|]. exfalso. apply in_split in C as (l1 & l2 & El).
  assert (Up : forall m q l0, requested l0 m q -> (exists r, s_log s = l0 ++ r) -> requested (s_log s) m q) by (intros m q l0 [c R] [r ->]; exists c; apply in_app_iff; now left).
  destruct (reach_entries E h s H _ _ _ El) as [X|(l0 & m & key & o' & -> & W & Rm & Ak & Km)]; [apply Ns; rewrite El; apply in_app_iff; now left|].
  destruct W as (o1 & R1 & A1 & K1 & T1 & S1). rewrite <- app_assoc in El. cbn [app] in El.
  assert (o1 = o) as ->.
  { destruct Rq as [c R], (Up _ _ _ R1 (ex_intro _ _ El)) as [c' R']. exact (proj2 (r_uniq s (v_r E s (reach_all E h s H)) _ _ _ _ _ R' R)). }
  assert (Kk : kind_of o' = Some k) by (rewrite <- K; apply C23_key_iff_kind; congruence).
  apply (Nc l0 m (OCancel n :: l2) n o' El Rm Kk). exists o. split; [exact R1|]. split; [exact K|]. split; [rewrite <- (expects_asks o k K); exact A1|]. auto.
Qed.
(** A request that has completed while the engine goes on has been queued for a
    connection. *)
Lemma settled_forwarded E h s n : reach E h s -> ~ In OStop (s_log s) -> In n (settled (s_log s)) -> exists a o, In (OForward n a o) (s_log s).
Proof.
  intros H Ns St. pose proof (reach_all E h s H) as I.
  assert (Tk : In n (takes (s_log s))).
  { pose proof St as St'. apply settled_in in St' as [(ser & i & A)|C].
    - apply in_split in A as (l1 & l2 & El). destruct (reach_entries E h s H _ _ _ El) as (l0 & a & i0 & key & -> & _ & _ & (o & _ & _ & _ & T & _)).
      rewrite El. unfold takes in *. rewrite !flat_map_app, !in_app_iff. auto.
    - apply in_split in C as (l1 & l2 & El). destruct (reach_entries E h s H _ _ _ El) as [X|(l0 & m & key & o & -> & (o1 & _ & _ & _ & T & _) & _)].
      + exfalso. apply Ns. rewrite El. apply in_app_iff. now left.
      + rewrite El. unfold takes in *. rewrite !flat_map_app, !in_app_iff. auto. }
  destruct (reach_queues E h s H) as [_ (rest & T & P)]. rewrite T in Tk. apply in_app_iff in Tk as [F|F].
  - unfold forwarded in F. apply in_flat_map in F as (x & Hx & F). destruct x as [| | | | |m a o| | | | | | | | | | | | |]; try contradiction. destruct F as [->|[]]. eauto.
  - exfalso. assert (Hp : s_phase s <> PStop) by (intros X; apply Ns; now apply (i_stop s (v_s E s I))).
    pose proof (c_ph E s (v_c E s I)) as Ph. unfold phase_ok in Ph. pose proof (v_r E s I) as R.
    destruct (s_phase s) as [| | | | |]; try (subst rest; contradiction); try congruence;
      subst rest; destruct F as [->|[]]; destruct Ph as [Ph _]; apply (waiting_find s n kconnect R) in Ph; destruct Ph as (o & _ & _ & _ & _ & Z); contradiction.
Qed.
Lemma sent_subseq a l : subseq (sent_to a l) (forwarded l).
Proof.
  induction l as [|x l IH]; [constructor|]. destruct x as [| | | | |n b o| | | | | | | | | | | | |]; try exact IH.
  change (subseq ((if baddr_eqb b a then [n] else []) ++ sent_to a l) (n :: forwarded l)). destruct (baddr_eqb b a); cbn [app]; now constructor.
Qed.
(** Requests of one client that have been queued for the same connection were queued in
    the order of the calls. *)
Lemma queued_in_order E h s c a ns os : reach E h s -> subseq ns (issued c (s_log s)) -> Forall2 (fun n o => In (OForward n a o) (s_log s)) ns os ->
  subseq (combine (map Some ns) os) (queued a (s_log s)).
Proof.
  intros H S F. destruct (reach_queues E h s H) as [Q (rest & T & _)]. set (l := s_log s) in *.
  assert (Fin : forall n, In n ns -> In n (sent_to a l)).
  { intros n X. clear S. induction F as [|m o ms os' Hm F IH]; [contradiction|]. destruct X as [->|X]; [|auto]. unfold sent_to. apply in_flat_map. eexists. split; [exact Hm|]. cbn. rewrite baddr_eqb_refl. now left. }
  assert (Sq : subseq ns (srcs (queued a l))).
  { rewrite srcs_queued. apply (subseq_of_filter (fun n => in_nat n (issued c l))). apply (subseq_common _ _ (issued c l)); [exact (issued_nodup E h s c H)|exact S| |].
    - eapply subseq_trans; [|apply initial_subseq; exists (map fst (ch_up (s_ch s c))); exact (q_up s Q c)].
      fold l. rewrite T. apply subseq_keep. eapply subseq_trans; [apply sent_subseq|]. apply initial_subseq. now eexists.
    - intros n X. apply filter_In. split; [auto|]. apply is_in_spec. eapply subseq_in; eauto. }
  apply subseq_srcs in Sq as (xs & X1 & X2).
  assert (xs = combine (map Some ns) os) as <-; [|exact X1].
  assert (Lq : forall x, In x xs -> In x (queued a l)) by (intros x X; eapply subseq_in; eauto). clear X1 S Fin.
  revert xs X2 Lq. induction F as [|n o ms os' Hn F IH]; intros xs X2 Lq; inversion X2 as [|? x ? xs' X Y]; subst; [reflexivity|]. cbn [map combine]. f_equal; [|apply IH; auto; intros z Z; apply Lq; now right].
  destruct x as [src o1]. cbn in X. subst src. f_equal. specialize (Lq _ (or_introl eq_refl)). unfold queued in Lq. apply in_flat_map in Lq as (y & Hy & Z). destruct y as [| | | | |m b o2|b| | | | | | | | | | | |]; try contradiction.
  - destruct (baddr_eqb b a); [|contradiction]. destruct Z as [[= -> ->]|[]]. exact (proj2 (c_fw1 E s (v_c E s (reach_all E h s H)) _ _ _ _ _ Hy Hn)).
  - destruct (baddr_eqb b a); [|contradiction]. destruct Z as [Z|[]]. discriminate.
Qed.

(** A producer has been built on client [c]. send_all has made its requests and has
    returned; the engine goes on. Every message that can be serialised has been read by
    the producer's broker, in this order - if the brokers answer at most what they have
    read and no other client sends under a sequence number in flight. *)
Theorem C79_send_all : forall T (ser : T -> option bytes) E io h s c id name topic rs made more cs ms ns got,
  let a := broker_of (e_cfg E) rs in let os := sends_from name id (sequence_id cs) (serialised ser ms) in
  reach E h s -> newids h <= 2 ^ 64 -> In (OReg c id) (s_log s) ->
  exec (producer_connect id name topic Client.fresh) rs = (made, Some (Ok tt)) -> requests c (s_log s) = made ++ more -> (forall cr, ~ In (OConnect cr) more) ->
  made_as c (s_log s) ns os -> snd (Producer.send_all ser id name cs ms (fates (s_log s) ns)) = Some (Ok tt) -> ~ In OStop (s_log s) ->
  (forall b, clock_fits b h) -> (forall b n o, In (n, o) (queued b (s_log s)) -> sendable_request o) -> read_along E io h got ->
  (forall seq, answers_reads (KSend seq) h got) -> (forall seq, no_collision_of (KSend seq) (s_log s)) ->
  says_all (e_cfg E) os (got h a).
Proof.
  intros T ser E io h s c id name topic rs made more cs ms ns got a os H Hn Rg X Rq Nm [Mp Mo] Re Ns Ck Q Ra An Nc.
  apply part_subseq in Mp.
  assert (St : forall n, In n ns -> In n (settled (s_log s))).
  { apply all_came. pose proof (C24_send_all T ser id name cs ms (fates (s_log s) ns)) as Y.
    assert (L : length (fates (s_log s) ns) = length (somes (map ser ms))).
    { unfold fates. rewrite map_length, (Forall2_len _ _ _ Mo). unfold os. now rewrite sends_length, serialised_somes. }
    specialize (Y L). destruct (Producer.send_all ser id name cs ms (fates (s_log s) ns)) as [m r]. destruct Y as (_ & Y & _). now apply Y. }
  assert (Ko : forall o, In o os -> own id o = true /\ exists q, kind_of o = Some (KSend q)).
  { unfold os. generalize (sequence_id cs). clear. induction (serialised ser ms) as [|d r IH]; intros q o; [intros []|]. intros [<-|X]; [|eauto]. split; [cbn; apply N.eqb_refl|cbn; eauto]. }
  assert (Bu : built id rs made) by (right; eauto).
  set (ps := combine ns os).
  assert (Pf : map fst ps = ns /\ map snd ps = os).
  { unfold ps. pose proof (Forall2_len _ _ _ Mo) as L. clear - L. revert L. generalize os. induction ns as [|n l IH]; intros [|o os1] L; try discriminate; [auto|]. cbn in *. injection L as L. destruct (IH os1 L) as [-> ->]. auto. }
  assert (Pi : forall n o, In (n, o) ps -> In n ns /\ In o os /\ In (OIssue c n o) (s_log s)).
  { unfold ps. clear - Mo. revert Mo. generalize os. induction ns as [|m l IH]; intros os' Mo n o Y; inversion Mo as [|? o1 ? os1 M1 M2]; subst; [contradiction|]. destruct Y as [[= <- <-]|Y].
    - split; [now left|]. split; [now left|exact M1].
    - destruct (IH os1 M2 n o Y) as (A & B & C). split; [now right|]. split; [now right|exact C]. }
  destruct Pf as [P1 P2]. rewrite <- P2. apply (read_in_order E io h s c a ps got H); auto; [rewrite P1; exact Mp|].
  intros n o Y. destruct (Pi n o Y) as (A & B & C). split; [exact C|]. destruct (Ko o B) as (Ow & q & K).
  destruct (settled_answered E h s (KSend q) n o H Ns (Nc q) (ex_intro _ c C) K (St n A)) as (ser' & i & Aw).
  destruct (completed_read E io h s got (KSend q) n o ser' i H Ck Q Ra (An q) (Nc q) (ex_intro _ c C) K Aw) as (b & i0 & o' & mc & _ & _ & Rd & _).
  exists o'. enough (b = a) as <- by exact Rd.
  assert (Wr : In (Some n, o') (written b (s_log s))) by (apply (taken_written E b io h s H (Ck b) (Q b)), (firstn_In (length (got h b))); exact Rd).
  unfold written in Wr. apply in_flat_map in Wr as (y & Hy & Z). destruct y as [| | | | | | |b' sr o1 ok| | | | | | | | | | |]; try contradiction.
  destruct (baddr_eqb b' b) eqn:Eb; [|contradiction]. apply baddr_eqb_spec in Eb. subst b'. destruct Z as [[= -> ->]|[]].
  destruct (C39_commands_unchanged E h s b n o' ok H Hy) as (q0 & (c1 & Q1) & X1). destruct (r_uniq s (v_r E s (reach_all E h s H)) _ _ _ _ _ C Q1) as [_ <-].
  assert (o' = o) as -> by (destruct o; try exact X1; discriminate Ow).
  apply in_split in Hy as (l1 & l2 & Es). pose proof (reach_entries E h s H _ _ _ Es) as Fw. cbn in Fw.
  apply (own_goes E h s c id rs made more H Hn Bu Rq Nm n b o); [rewrite Es; apply in_app_iff; auto|exact Ow|]. apply (proj2 (PropRoute.issued_in _ _ _)). eauto.
Qed.
Print Assumptions C79_send_all.

(** A consumer has been built on client [c]. ack_all has made its requests and has
    returned; the engine goes on. Every one of its acknowledgements has been queued for
    the connection of the consumer, in this order. *)
Theorem C79_ack_all : forall E h s c id name topic sub permits rs made more cs mids ns,
  let a := broker_of (e_cfg E) rs in let os := acks_from id (request_id cs) mids in
  reach E h s -> newids h <= 2 ^ 64 -> In (OReg c id) (s_log s) ->
  exec (consumer_connect id name topic sub permits Client.fresh) rs = (made, Some (Ok tt)) -> requests c (s_log s) = made ++ more -> (forall cr, ~ In (OConnect cr) more) ->
  made_as c (s_log s) ns os -> snd (ack_all id name cs mids (fates (s_log s) ns)) = Some (Ok tt) -> ~ In OStop (s_log s) ->
  part (combine (map Some ns) os) (queued a (s_log s)).
Proof.
  intros E h s c id name topic sub permits rs made more cs mids ns a os H Hn Rg X Rq Nm [Mp Mo] Re Ns.
  apply part_subseq in Mp. apply part_subseq.
  assert (St : forall n, In n ns -> In n (settled (s_log s))).
  { apply all_came. pose proof (C24_ack_all id name cs mids (fates (s_log s) ns)) as Y.
    assert (L : length (fates (s_log s) ns) = length mids) by (unfold fates; rewrite map_length, (Forall2_len _ _ _ Mo); apply acks_length).
    specialize (Y L). destruct (ack_all id name cs mids (fates (s_log s) ns)) as [m r]. destruct Y as (_ & Y & _). now apply Y. }
  assert (Ko : forall o, In o os -> own id o = true).
  { unfold os. generalize (request_id cs). clear. induction mids as [|d r IH]; intros q o; [intros []|]. intros [<-|X]; [cbn; apply N.eqb_refl|eauto]. }
  apply (queued_in_order E h s c a ns os H Mp).
  assert (Bu : built id rs made) by (left; eauto).
  clear - H Hn Rg Bu Rq Nm Ns St Ko Mo. revert St Ko. induction Mo as [|n o ns' os' M1 M2 IH]; intros St Ko; constructor; [|apply IH; [intros m Y; apply St; now right|intros m Y; apply Ko; now right]].
  destruct (settled_forwarded E h s n H Ns (St n (or_introl eq_refl))) as (b & o' & F).
  destruct (c_fw E s (v_c E s (reach_all E h s H)) n b o' F) as (_ & q & [c' R] & Fm).
  destruct (r_uniq s (v_r E s (reach_all E h s H)) _ _ _ _ _ M1 R) as [_ <-]. pose proof (Ko o (or_introl eq_refl)) as Ow.
  assert (o' = o) as -> by (unfold formed in Fm; destruct o; try exact Fm; discriminate Ow).
  assert (b = a) as -> by (apply (own_goes E h s c id rs made more H Hn Bu Rq Nm n b o F Ow); apply (proj2 (PropRoute.issued_in _ _ _)); eauto). exact F.
Qed.
Print Assumptions C79_ack_all.

(** A consumer - the only client - is sent a batch of two messages and acknowledges both
    with ack_all. *)
Definition y_mids : list message := [[(1, PInt 7); (2, PInt 8); (4, PInt 0)]; [(1, PInt 7); (2, PInt 8); (4, PInt 1)]].
Definition y_events : list event := firstn 34 w_events ++
  [EvNet xP r_batch; EvConn xP; EvRecv 0%nat; EvIssue 0%nat l_a0; EvIssue 0%nat l_a1; EvClient 0%nat; EvWrite xP 0 true; EvClient 0%nat; EvNet xP (f_ack 0); EvConn xP].
Definition y_log : list obs := Eval vm_compute in log_of y_events.
Lemma y_log_eq : log_of y_events = y_log. Proof. vm_compute. reflexivity. Qed.
Lemma y_writes b : writes_succeed xE b (z_io b) y_events.
Proof.
  split; [|intros now ok X; unfold y_events, w_events in X; cbn [firstn app In] in X; PropReceipt.walk X; injection X as _ <- _; reflexivity].
  destruct (baddr_dec b xA) as [->|N]; [apply all_ok_check; vm_compute; reflexivity|].
  destruct (baddr_dec b xP) as [->|N2]; [apply all_ok_check; vm_compute; reflexivity|].
  intros x X. exfalso. rewrite no_offers in X; [destruct X|]. clear X. intros now ok Y. unfold y_events, w_events in Y; cbn [firstn app In] in Y; PropReceipt.walk Y; injection Y; intros _ _ Y'; (now apply N) || (now apply N2).
Qed.
Lemma y_sendable a m o : In (m, o) (SpecEngine.queued a y_log) -> sendable_request o.
Proof.
  intros X. unfold SpecEngine.queued in X. apply in_flat_map in X as (x & Hx & Hy).
  assert (S : Forall (fun x => match x with OForward _ _ o => sendable_request o | _ => True end) y_log).
  { unfold y_log. repeat (apply Forall_cons; [solve [exact I|exact (l_ack_fits 0 3 (or_introl (conj eq_refl eq_refl)))|exact (l_ack_fits 1 4 (or_intror (conj eq_refl eq_refl)))|x_fit]|]). apply Forall_nil. }
  rewrite Forall_forall in S. specialize (S x Hx).
  destruct x as [| | | | |n b o1| | | | | | | | | | | | |]; try contradiction.
  - destruct (baddr_eqb b a); [|contradiction]. destruct Hy as [[= _ <-]|[]]. exact S.
  - exfalso. unfold y_log in Hx. cbn [In] in Hx. PropReceipt.walk Hx.
Qed.
Lemma y_nets b x : In (EvNet b x) y_events -> b = xA \/ b = xP.
Proof. intros X. unfold y_events, w_events in X; cbn [firstn app In] in X; PropReceipt.walk X; injection X as <- _; auto. Qed.
(** ack_all returns Ok with all transports working, all brokers answering at most what
    they have read, and no other client - and the consumer's broker has not read the
    acknowledgement of the second message. All hypotheses of C79_ack_all hold. *)
Theorem C79_ack_all_unread : exists E io h s got c id name topic sub permits rs made more cs mids ns mid,
  reach E h s /\ (forall rank, as_polled E rank h) /\ newids h <= 2 ^ 64 /\ In (OReg c id) (s_log s) /\ (forall c' id', In (OReg c' id') (s_log s) -> c' = c) /\
  exec (consumer_connect id name topic sub permits Client.fresh) rs = (made, Some (Ok tt)) /\ requests c (s_log s) = made ++ more /\ (forall cr, ~ In (OConnect cr) more) /\
  made_as c (s_log s) ns (acks_from id (request_id cs) mids) /\ snd (ack_all id name cs mids (fates (s_log s) ns)) = Some (Ok tt) /\ ~ In OStop (s_log s) /\
  (forall a, writes_succeed E a (io a) h) /\ (forall b n o, In (n, o) (queued b (s_log s)) -> sendable_request o) /\ read_along E io h got /\ (forall k, answers_reads k h got) /\
  In mid mids /\ forall a mc ack, In mc (got h a) -> carries mc 10 10 ack -> ~ In mid (get_ms 3 ack).
Proof.
  destruct (log_reach y_events) as (s & R & L); [rewrite y_log_eq; discriminate|]. rewrite y_log_eq in L.
  assert (Sd : forall b n o, In (n, o) (SpecEngine.queued b (s_log s)) -> sendable_request o) by (rewrite L; apply y_sendable).
  exists xE, z_io, y_events, s, (read_everything xE z_io), 0%nat, 0, (str "n"), (str "t"), (str "s"), 250, x_rs, x_made, [l_a0; l_a1], (mk_counters 3 0), y_mids, [6%nat; 7%nat], [(1, PInt 7); (2, PInt 8); (4, PInt 1)].
  split; [exact R|]. split; [apply orderly_polled; vm_compute; reflexivity|]. split; [vm_compute; discriminate|].
  split; [rewrite L; unfold y_log; cbn [In]; repeat (first [left; reflexivity|right])|].
  split; [rewrite L; intros c' id' X; unfold y_log in X; cbn [In] in X; PropReceipt.walk X; injection X as <- _; reflexivity|].
  split; [exact x_made_eq|]. split; [rewrite L; vm_compute; reflexivity|]. split; [intros cr [X|[X|[]]]; discriminate|].
  split.
  { split; [apply part_subseq; rewrite L; let x := eval vm_compute in (issued 0%nat y_log) in change (issued 0%nat y_log) with x; repeat constructor|].
    change (acks_from 0 (request_id (mk_counters 3 0)) y_mids) with [l_a0; l_a1]. rewrite L. repeat (apply Forall2_cons; [unfold y_log; cbn [In]; repeat (first [left; reflexivity|right])|]). apply Forall2_nil. }
  split; [rewrite L; vm_compute; reflexivity|]. split; [rewrite L; unfold y_log; cbn [In]; intros X; PropReceipt.walk X|].
  split; [exact y_writes|]. split; [exact Sd|]. split; [exact (everything_along xE z_io y_events s R y_writes Sd)|].
  split; [|split; [right; now left|]].
  - intros k. destruct k; apply (answers_check _ y_events s R y_writes Sd y_nets); vm_compute; reflexivity.
  - intros b mc ack Hi Ca Im. destruct (read_all xE z_io y_events s R y_writes Sd) as [_ F]. specialize (F b). rewrite L in F.
    assert (G : exists x, In x (written b y_log) /\ request_of x mc).
    { clear - F Hi. revert Hi. induction F as [|x y xs ys D F IH]; [intros []|]. intros [<-|Y]; [exists x; split; [now left|exact D]|]. destruct (IH Y) as (z & A & B). exists z. split; [now right|exact B]. }
    destruct G as (x & Hx & now & _ & D).
    assert (K : kind_of (snd x) = Some KAck) by (rewrite <- (denotes_kind now (snd x) mc D); unfold command_kind; rewrite (proj1 Ca); reflexivity).
    assert (A : snd x = l_a0).
    { clear - Hx K. unfold written in Hx. apply in_flat_map in Hx as (y & Hy & Hx). unfold y_log in Hy. cbn [In] in Hy. PropReceipt.walk Hy; subst y; try contradiction.
      all: destruct (baddr_eqb _ b); try contradiction; destruct Hx as [<-|[]]; try discriminate K; reflexivity. }
    rewrite A in D. destruct D as (_ & ak & p & _ & (_ & C2 & _) & _ & _ & _ & G). destruct Ca as (_ & C2' & _). rewrite C2 in C2'. injection C2' as ->. rewrite G in Im. destruct Im as [Im|[]]. discriminate Im.
Qed.
Print Assumptions C79_ack_all_unread.

(** A producer sends three messages with send_all, the second of which cannot be
    serialised; the receipts arrive in the other order. *)
Definition j_ser (n : nat) : option bytes := if (n =? 2)%nat then None else Some (repeat Byte.x61 n).
Definition j_s1 : outbound := OSend (SSingle (str "p") 0 0 (repeat Byte.x61 1)).
Definition j_s2 : outbound := OSend (SSingle (str "p") 0 1 (repeat Byte.x61 3)).
Definition j_events : list event := firstn (length x_reg2 + 20) v_events ++
  [EvIssue 0%nat j_s1; EvIssue 0%nat j_s2; EvClient 0%nat; EvWrite xA 7 true; EvClient 0%nat; EvWrite xA 8 true; EvNet xA (f_receipt 0 1); EvNet xA (f_receipt 0 0); EvConn xA; EvConn xA].
Definition j_log : list obs := Eval vm_compute in log_of j_events.
Lemma j_log_eq : log_of j_events = j_log. Proof. vm_compute. reflexivity. Qed.
Lemma j_writes b : writes_succeed xE b (z_io b) j_events.
Proof.
  split; [|intros now ok X; unfold j_events, v_events, x_reg2 in X; cbn [length plus firstn app In] in X; PropReceipt.walk X; injection X as _ <- _; reflexivity].
  destruct (baddr_dec b xA) as [->|N]; [apply all_ok_check; vm_compute; reflexivity|].
  intros x X. exfalso. rewrite no_offers in X; [destruct X|]. clear X. intros now ok Y. unfold j_events, v_events, x_reg2 in Y; cbn [length plus firstn app In] in Y; PropReceipt.walk Y; injection Y; intros _ _ Y'; apply N; symmetry; exact Y'.
Qed.
Lemma j_sendable a m o : In (m, o) (SpecEngine.queued a j_log) -> sendable_request o.
Proof.
  intros X. unfold SpecEngine.queued in X. apply in_flat_map in X as (x & Hx & Hy).
  assert (S : Forall (fun x => match x with OForward _ _ o => sendable_request o | _ => True end) j_log).
  { unfold j_log. repeat (apply Forall_cons; [solve [exact I|x_fit]|]). apply Forall_nil. }
  rewrite Forall_forall in S. specialize (S x Hx).
  destruct x as [| | | | |n b o1| | | | | | | | | | | | |]; try contradiction.
  - destruct (baddr_eqb b a); [|contradiction]. destruct Hy as [[= _ <-]|[]]. exact S.
  - exfalso. unfold j_log in Hx. cbn [In] in Hx. PropReceipt.walk Hx.
Qed.
Lemma j_nets b x : In (EvNet b x) j_events -> b = xA \/ b = xP.
Proof. intros X. unfold j_events, v_events, x_reg2 in X; cbn [length plus firstn app In] in X; PropReceipt.walk X; injection X as <- _; auto. Qed.
Example C79_send_all_meets : exists s, let got := read_everything xE z_io in let os := sends_from (str "p") 0 0 (serialised j_ser [1; 2; 3]%nat) in
  broker_of (e_cfg xE) v_rs = xA /\ reach xE j_events s /\ newids j_events <= 2 ^ 64 /\ In (OReg 0%nat 0) (s_log s) /\
  exec (producer_connect 0 (str "p") (str "t") Client.fresh) v_rs = (v_made, Some (Ok tt)) /\ requests 0%nat (s_log s) = v_made ++ os /\ (forall cr, ~ In (OConnect cr) os) /\
  made_as 0%nat (s_log s) [4; 5]%nat os /\ snd (Producer.send_all j_ser 0 (str "p") (mk_counters 2 0) [1; 2; 3]%nat (fates (s_log s) [4; 5]%nat)) = Some (Ok tt) /\ ~ In OStop (s_log s) /\
  (forall b, clock_fits b j_events) /\ (forall b n o, In (n, o) (SpecEngine.queued b (s_log s)) -> sendable_request o) /\ read_along xE z_io j_events got /\
  (forall seq, answers_reads (KSend seq) j_events got) /\ (forall seq, no_collision_of (KSend seq) (s_log s)).
Proof.
  destruct (log_reach j_events) as (s & R & L); [rewrite j_log_eq; discriminate|]. rewrite j_log_eq in L.
  assert (Sd : forall b n o, In (n, o) (SpecEngine.queued b (s_log s)) -> sendable_request o) by (rewrite L; apply j_sendable).
  exists s. cbv zeta. change (sends_from (str "p") 0 0 (serialised j_ser [1; 2; 3]%nat)) with [j_s1; j_s2]. split; [reflexivity|]. split; [exact R|]. split; [vm_compute; discriminate|].
  split; [rewrite L; unfold j_log; cbn [In]; repeat (first [left; reflexivity|right])|]. split; [vm_compute; reflexivity|]. split; [rewrite L; vm_compute; reflexivity|]. split; [intros cr [X|[X|[]]]; discriminate|].
  split.
  { split; [apply part_subseq; rewrite L; let x := eval vm_compute in (issued 0%nat j_log) in change (issued 0%nat j_log) with x; repeat constructor|].
    rewrite L. repeat (apply Forall2_cons; [unfold j_log; cbn [In]; repeat (first [left; reflexivity|right])|]). apply Forall2_nil. }
  split; [rewrite L; vm_compute; reflexivity|]. split; [rewrite L; unfold j_log; cbn [In]; intros X; PropReceipt.walk X|].
  split; [intros b; exact (proj2 (j_writes b))|]. split; [exact Sd|]. split; [exact (everything_along xE z_io j_events s R j_writes Sd)|].
  split.
  - intros q. destruct (N.eq_dec q 0) as [->|N0]; [apply (answers_check _ j_events s R j_writes Sd j_nets); vm_compute; reflexivity|].
    destruct (N.eq_dec q 1) as [->|N1]; [apply (answers_check _ j_events s R j_writes Sd j_nets); vm_compute; reflexivity|].
    intros g1 g2 Eh b. assert (Z : filter (answersb (KSend q)) (inbounds (nets b g1)) = []); [|rewrite Z; cbn; lia].
    assert (Sub : forall i, In i (inbounds (nets b g1)) -> In i (inbounds (nets xA j_events))).
    { intros i Hi. unfold inbounds, nets in *. apply in_flat_map in Hi as (x & Hx & Hi). apply in_flat_map. exists x. split; [|exact Hi]. apply in_flat_map in Hx as (e & He & Hx). apply in_flat_map. exists e. split; [rewrite Eh; apply in_app_iff; now left|].
      assert (In e j_events) by (rewrite Eh; apply in_app_iff; now left). destruct e; try contradiction. assert (a = xA) as ->; [|rewrite baddr_eqb_refl; destruct (baddr_eqb xA b); [exact Hx|contradiction]].
      clear - H. unfold j_events, v_events, x_reg2 in H; cbn [length plus firstn app In] in H; PropReceipt.walk H; injection H as <- _; reflexivity. }
    assert (C : forall i, In i (inbounds (nets xA j_events)) -> answersb (KSend q) i = false).
    { let x := eval vm_compute in (inbounds (nets xA j_events)) in assert (V : inbounds (nets xA j_events) = x) by (vm_compute; reflexivity). rewrite V. intros i Hi. cbn [In] in Hi. PropReceipt.walk Hi; subst i; try reflexivity;
      unfold answersb; apply N.eqb_neq; intros Y; congruence. }
    clear - Sub C. induction (inbounds (nets b g1)) as [|i l IH]; [reflexivity|]. cbn [filter]. rewrite (C i) by (apply Sub; now left). apply IH. intros j X. apply Sub. now right.
  - intros q l1 n l2 m o El [h1 Hr] Hk (o' & [h2 Q1] & Q2 & Q3 & Q4 & Q5). rewrite L in El. unfold j_log in El. splits El.
    all: cbn in Hr, Q1; vm_compute in Q4, Q5.
    all: repeat match goal with H : _ \/ _ |- _ => destruct H as [H|H]; try discriminate H | H : False |- _ => destruct H end; try lia.
    all: repeat match goal with H : OIssue _ _ _ = OIssue _ _ _ |- _ => injection H; clear H; intros; subst end; try lia; cbn in Hk, Q2; try congruence; try tauto.
Qed.
