(** C81: what is said on a connection at all, what is said first, and what a dropped
    client still says. *)
From Verif Require Import Bytes Errors Wire Proto Codec SpecFrame SpecCodec Address Message SpecMessage Client SpecKeys SpecClient Producer Consumer SpecConsumer Engine SpecEngine SpecEngine2 Sink SpecStack SpecAnswered SpecLoop SpecPermits ConsumerFacts FlowFacts SinkFacts EngineFacts EngineInv EngineReq EngineEv EngineConn EngineLog EngineView EngineQueue EngineRoute EngineNet EngineGate EngineLife EngineEx SpecTurn TurnFacts CodecFacts MessageFacts PropCodec PropMessage PropClient PropProducer PropConsumer PropFlow PropEngine PropEngine2 PropEngine6 PropStack PropReceipt PropRoute PropDeliver PropSends PropReads PropTurn PropAnswered PropLoop PropBatchFlow PropPermits.
Open Scope N_scope.

(** The type of a command (pulsar.proto, BaseCommand.type). *)
Definition command_type (mc : msg_cmd) : option Z := get_z 1 (mc_cmd mc).
(** CONNECT, SUBSCRIBE, PRODUCER, SEND, ACK, FLOW, PONG, LOOKUP. *)
Definition spoken : list Z := [2; 4; 5; 6; 10; 11; 19; 23]%Z.
Definition is_pong (mc : msg_cmd) : bool := match command_type mc with Some 19%Z => true | _ => false end.

(** * What is said *)
Lemma written_from E h s a src o : reach E h s -> In (src, o) (written a (s_log s)) ->
  match src with
  | None => o = OPong
  | Some n => In (OForward n a o) (s_log s) /\ exists c q, In (OIssue c n q) (s_log s) /\ api_request (ch_id (s_ch s c)) q = true /\
      match q with OConnect cr => exists d m, o = OConnect (mk_connect d m (Some (fill_address (e_cfg E) (cn_addr cr)))) | _ => o = q end
  end.
Proof.
  intros H X. unfold written in X. apply in_flat_map in X as (x & Hx & Hy). destruct x as [| | | | | | |b sr o' ok| | | | | | | | | | |]; try contradiction.
  destruct (baddr_eqb b a) eqn:B; [|contradiction]. apply baddr_eqb_spec in B. subst b. destruct Hy as [[= -> ->]|[]].
  destruct src as [n|]; [|exact (C40_engine_writes_pongs E h s a o ok H Hx)].
  split. { pose proof Hx as Hz. apply in_split in Hz as (l1 & l2 & El). pose proof (reach_entries E h s H _ _ _ El) as Y. cbn in Y. rewrite El. apply in_app_iff. now left. }
  destruct (C39_commands_unchanged E h s a n o ok H Hx) as (q & [c Q] & F). exists c, q. split; [exact Q|]. split; [|exact F].
  exact (proj2 (c_api E s (v_c E s (reach_all E h s H)) c n q Q)).
Qed.
Lemma denotes_type now o mc : denotes now o mc ->
  command_type mc = Some match o with OPing => 18 | OPong => 19 | OConnect _ => 2 | OSend _ => 6 | OAck _ => 10 | OLookup _ _ => 23 | OSubscribe _ _ _ _ _ => 4 | OAuth _ _ => 36 | OFlow _ _ => 11 | OProducer _ _ _ _ => 5 end%Z.
Proof.
  unfold command_type. destruct o; cbn [denotes]; intros D; decompose [and ex] D; match goal with X : carries mc _ _ _ |- _ => destruct X as (X & _); exact X end.
Qed.
Definition wire_type (o : outbound) : Z := match o with OPing => 18 | OPong => 19 | OConnect _ => 2 | OSend _ => 6 | OAck _ => 10 | OLookup _ _ => 23 | OSubscribe _ _ _ _ _ => 4 | OAuth _ _ => 36 | OFlow _ _ => 11 | OProducer _ _ _ _ => 5 end%Z.
Lemma request_type x mc : request_of x mc -> command_type mc = Some (wire_type (snd x)).
Proof. intros (now & _ & D). exact (denotes_type now (snd x) mc D). Qed.
(** A command a broker has read, and where it comes from. *)
Lemma read_from E io h s got a mc : reach E h s -> clock_fits a h -> (forall n o, In (n, o) (queued a (s_log s)) -> sendable_request o) ->
  brokers_read E io h got -> In mc (got a) -> exists x, In x (written a (s_log s)) /\ request_of x mc.
Proof.
  intros H Ck Q G I. destruct (got_taken E io h s got a H Ck Q G) as (mcs & Im & F). apply In_nth_error in I as [i I].
  apply (initial_nth _ _ _ _ Im) in I. destruct (Forall2_nth _ _ _ _ _ F I) as (x & Hx & R). exists x. split; [|exact R].
  apply nth_error_In in Hx. exact (taken_written E a io h s H Ck Q x Hx).
Qed.
(** Whatever the applications call, whatever the brokers send, and whatever the
    transports do: no broker is ever sent anything but these eight commands. In
    particular nothing is ever unsubscribed, closed, redelivered, pinged or
    re-authenticated. *)
Theorem C81_only_these_commands : forall E io h s got a mc, reach E h s -> clock_fits a h -> (forall n o, In (n, o) (queued a (s_log s)) -> sendable_request o) ->
  brokers_read E io h got -> In mc (got a) -> exists t, command_type mc = Some t /\ In t spoken.
Proof.
  intros E io h s got a mc H Ck Q G I. destruct (read_from E io h s got a mc H Ck Q G I) as ([src o] & W & R).
  exists (wire_type o). split; [exact (request_type _ _ R)|]. pose proof (written_from E h s a src o H W) as X. destruct src as [n|].
  - destruct X as (_ & c & q & _ & A & F). destruct q as [| |cr| | | | | | |]; try discriminate A; try (destruct F as (d & m & ->)); try (subst o); cbn [wire_type spoken In]; tauto.
  - subst o. cbn [wire_type spoken In]. tauto.
Qed.
Print Assumptions C81_only_these_commands.

(** * What is said first *)
Lemma goes_connect cfg os : forall home k a, nth_error (goes cfg home os) k = Some a ->
  a = home \/ exists j cr, (j <= k)%nat /\ nth_error os j = Some (OConnect cr) /\ nth_error (goes cfg home os) j = Some a.
Proof.
  induction os as [|o os IH]; intros home k a Hk; [destruct k; discriminate|].
  assert (G : exists a0, goes cfg home (o :: os) = a0 :: goes cfg a0 os /\ (a0 = home \/ exists cr, o = OConnect cr)).
  { destruct o as [| |c| | | | | | |]; cbn [goes]; eauto. destruct (cn_addr c) as [[]|]; eauto. }
  destruct G as (a0 & G & O). rewrite G in *. destruct k as [|k]; cbn [nth_error] in Hk.
  - injection Hk as ->. destruct O as [O|[cr ->]]; [now left|]. right. exists 0%nat, cr. repeat split; auto.
  - destruct (IH a0 k a Hk) as [->|(j & cr & J1 & J2 & J3)].
    + destruct O as [O|[cr ->]]; [now left|]. right. exists 0%nat, cr. repeat split; auto. lia.
    + right. exists (S j), cr. repeat split; auto. lia.
Qed.
Lemma goes_first cfg os home k a cr0 : hd_error os = Some (OConnect cr0) -> nth_error (goes cfg home os) k = Some a ->
  exists j cr, (j <= k)%nat /\ nth_error os j = Some (OConnect cr) /\ nth_error (goes cfg home os) j = Some a.
Proof.
  destruct os as [|o os]; [discriminate|]. intros [= ->] Hk.
  assert (G : exists a0, goes cfg home (OConnect cr0 :: os) = a0 :: goes cfg a0 os) by (cbn [goes]; destruct (cn_addr cr0) as [[]|]; eauto).
  destruct G as (a0 & G). rewrite G in *. destruct k as [|k]; cbn [nth_error] in Hk.
  - exists 0%nat, cr0. repeat split; auto.
  - destruct (goes_connect cfg os a0 k a Hk) as [->|(j & cr & J1 & J2 & J3)]; [exists 0%nat, cr0|exists (S j), cr]; repeat split; auto; lia.
Qed.
(** Every client begins with a connect, as the builders do (C24, C62). *)
Definition connects_first (l : list obs) : Prop := forall c o os, requests c l = o :: os -> exists cr, o = OConnect cr.
Lemma takes_split l : forall x n r, takes l = x ++ n :: r -> exists l1 l2, l = l1 ++ OTake n :: l2 /\ takes l1 = x /\ takes l2 = r.
Proof.
  induction l as [|e l IH]; intros x n r Hx; [destruct x; discriminate|].
  assert (G : takes (e :: l) = takes l \/ exists m, e = OTake m /\ takes (e :: l) = m :: takes l) by (destruct e; auto; right; eauto).
  destruct G as [G|(m & -> & G)]; rewrite G in Hx.
  - destruct (IH x n r Hx) as (l1 & l2 & -> & A & B). exists (e :: l1), l2. split; [reflexivity|]. split; [|exact B]. rewrite <- A.
    clear - G. destruct e; try reflexivity. exfalso. apply (f_equal (@length nat)) in G. match type of G with length (takes (_ :: ?m)) = _ => change (S (length (takes m)) = length (takes m)) in G end. lia.
  - destruct x as [|y x]; injection Hx as -> Hx.
    + exists [], l. auto.
    + destruct (IH x n r Hx) as (l1 & l2 & -> & A & B). exists (OTake y :: l1), l2. split; [reflexivity|]. split; [change (y :: takes l1 = y :: x); f_equal; exact A|exact B].
Qed.
Lemma forwarded_in n l : In n (forwarded l) -> exists a o, In (OForward n a o) l.
Proof. unfold forwarded. intros X. apply in_flat_map in X as (x & Hx & Hn). destruct x; try contradiction. destruct Hn as [->|[]]. eauto. Qed.
Lemma not_connect q : is_connect q = false -> forall cr, q <> OConnect cr.
Proof. intros X cr ->. discriminate. Qed.
(** A request that is not a connect and is forwarded to [a] comes after a connect its
    client made and that was forwarded to [a] too. *)
Lemma connect_before E h s l1 n a o l2 c q : reach E h s -> newids h <= 2 ^ 64 -> connects_first (s_log s) ->
  s_log s = l1 ++ OForward n a o :: l2 -> In (OIssue c n q) (s_log s) -> is_connect q = false ->
  exists m cr o', In (OIssue c m (OConnect cr)) (s_log s) /\ In (OForward m a o') l1.
Proof.
  intros H Hn Cf El Iq Nc. pose proof (v_r E s (reach_all E h s H)) as R. pose proof (reach_entries E h s H _ _ _ El) as (_ & _ & _ & Once & _).
  assert (Im : In n (issued c (s_log s))) by (apply PropRoute.issued_in; eauto). apply In_nth_error in Im as [k K].
  assert (Rk : nth_error (requests c (s_log s)) k = Some q).
  { pose proof (issue_nth c (s_log s) k) as X. rewrite K in X. destruct (nth_error (requests c (s_log s)) k) as [q'|]; [|contradiction]. destruct (r_uniq s R _ _ _ _ _ X Iq) as [_ ->]. reflexivity. }
  assert (Hf : In (OForward n a o) (s_log s)) by (rewrite El; apply in_elt).
  pose proof (C68_route E h s c k n a o H Hn K Hf) as Go.
  destruct (requests c (s_log s)) as [|o0 os] eqn:Rq; [destruct k; discriminate|]. destruct (Cf c o0 os Rq) as [cr0 ->].
  destruct (goes_first _ (OConnect cr0 :: os) _ _ _ cr0 eq_refl Go) as (j & cr & J1 & J2 & J3). rewrite <- Rq in J2, J3.
  assert (J : (j < k)%nat). { destruct (Nat.eq_dec j k) as [->|]; [|lia]. rewrite Rq, Rk in J2. injection J2 as ->. discriminate. }
  pose proof (issue_nth c (s_log s) j) as Y. rewrite J2 in Y. destruct (nth_error (issued c (s_log s)) j) as [m|] eqn:Mj; [|contradiction].
  pose proof Mj as Mj0. exists m, cr.
  destruct (fm_initial E h s c H (l1 ++ [OForward n a o])) as [r Fi]; [exists l2; rewrite El, <- app_assoc; reflexivity|].
  rewrite forwarded_app, filter_app in Fi. change (forwarded [OForward n a o]) with [n] in Fi. cbn [filter] in Fi.
  assert (Mn : in_nat n (issued c (s_log s)) = true) by (apply is_in_spec, PropRoute.issued_in; eauto). rewrite Mn, <- app_assoc in Fi. cbn [app] in Fi.
  set (fm := filter (fun n0 => in_nat n0 (issued c (s_log s))) (forwarded l1)) in *.
  assert (Lk : k = length fm).
  { apply (proj1 (NoDup_nth_error (issued c (s_log s))) (issued_nodup E h s c H)); [apply nth_error_Some; congruence|]. rewrite K, Fi, nth_error_app2, Nat.sub_diag by apply le_n. reflexivity. }
  rewrite Fi, nth_error_app1 in Mj by lia. apply nth_error_In in Mj. apply filter_In in Mj as [Mj _]. apply forwarded_in in Mj as (b & o' & Fw). exists o'. split; [exact Y|].
  assert (Fw' : In (OForward m b o') (s_log s)) by (rewrite El; apply in_app_iff; now left).
  pose proof (C68_route E h s c j m b o' H Hn Mj0 Fw') as Gj. assert (b = a) as -> by congruence. exact Fw.
Qed.

(** By the time the engine takes another request, a connect forwarded to [a] has been
    answered, by a CONNECTED that arrived on [a]. *)
Lemma connect_answered E h s l1 m a o cr c n b o2 l2 l3 : reach E h s -> In (OIssue c m (OConnect cr)) (s_log s) ->
  s_log s = l1 ++ OForward m a o :: l2 ++ OForward n b o2 :: l3 -> In InConnected (arrived_at a (s_log s)).
Proof.
  intros H Iq El. pose proof (v_r E s (reach_all E h s H)) as R. pose proof (reach_entries E h s H) as En. destruct (reach_queues E h s H) as [Q (rest & T & _)].
  assert (Fw : forwarded (s_log s) = forwarded l1 ++ m :: forwarded l2 ++ n :: forwarded l3).
  { rewrite El, forwarded_app. f_equal. change (forwarded (OForward m a o :: l2 ++ OForward n b o2 :: l3)) with (m :: forwarded (l2 ++ OForward n b o2 :: l3)). f_equal. now rewrite forwarded_app. }
  rewrite Fw, <- app_assoc in T. cbn [app] in T. apply takes_split in T as (p1 & p2 & Ep & _ & T2). rewrite <- app_assoc in T2. cbn [app] in T2. apply takes_split in T2 as (p3 & p4 & -> & _ & _).
  pose proof (C37_one_connect_at_a_time E h s p1 m cr p3 n p4 H Ep (ex_intro _ c Iq)) as St.
  unfold settled in St. apply in_flat_map in St as (x & Hx & Hs).
  assert (Ep' : s_log s = (p1 ++ OTake m :: p3) ++ OTake n :: p4) by (rewrite Ep, <- app_assoc; reflexivity).
  destruct (En _ _ _ Ep') as (Ns & _). destruct x; try contradiction; destruct Hs as [->|[]].
  - apply in_split in Hx as (q1 & q2 & Eq). assert (El' : s_log s = q1 ++ OAnswer m ser i :: (q2 ++ OTake n :: p4)) by (rewrite Ep', Eq, <- app_assoc; reflexivity).
    destruct (En _ _ _ El') as (l0 & a' & i0 & k & E0 & _ & Ik & W).
    assert (Em : s_log s = l0 ++ OHandle a' ser i0 :: OAnswer m ser i :: q2 ++ OTake n :: p4) by (rewrite El', E0, <- app_assoc; reflexivity).
    assert (k = kconnect).
    { destruct W as (q & (c' & Rq) & _ & Ok & _). assert (X : In (OIssue c' m q) (s_log s)) by (rewrite Em; apply in_app_iff; now left). destruct (r_uniq s R _ _ _ _ _ X Iq) as [_ ->]. cbn in Ok. now injection Ok as <-. }
    subst k. destruct (reach_gates E h s H _ _ _ Em) as [Gt _]. destruct (Gt m W) as (-> & cr' & Fm).
    assert (a' = a) as ->.
    { apply (c_fw1 E s (v_c E s (reach_all E h s H)) m a' (OConnect cr') a o); [rewrite Em; apply in_app_iff; now left|rewrite El; apply in_elt]. }
    destruct (En _ _ _ Em) as (_ & Av & _). unfold arrived_at. apply in_flat_map. exists (OArrive a ser InConnected). split; [rewrite Em; apply in_app_iff; now left|]. rewrite baddr_eqb_refl. now left.
  - exfalso. apply in_split in Hx as (q1 & q2 & Eq). assert (El' : s_log s = q1 ++ OCancel m :: (q2 ++ OTake n :: p4)) by (rewrite Ep', Eq, <- app_assoc; reflexivity).
    apply Ns. rewrite Eq. apply in_app_iff. left. exact (C37_connects_never_cancelled E h s q1 m cr _ H El' (ex_intro _ c Iq)).
Qed.
Lemma net_arrived E h s a i : reach E h s -> In i (arrived_at a (s_log s)) -> exists f, In (EvNet a (IFrame f)) h /\ to_inbound f = Ok i.
Proof.
  intros H X. rewrite (reach_inbounds E h s a H) in X. unfold inbounds in X. apply in_flat_map in X as (it & Hit & Hi). destruct it as [mc| | |]; try contradiction.
  unfold nets in Hit. apply in_flat_map in Hit as (e & He & Hx). destruct e as [| | | | | | | | | | | | | | | |b x]; try contradiction.
  destruct (baddr_eqb b a) eqn:B; [|contradiction]. destruct Hx as [->|[]]. apply baddr_eqb_spec in B. subst b. exists mc. split; [exact He|].
  destruct (to_inbound mc) as [j| |]; try contradiction. destruct Hi as [->|[]]. reflexivity.
Qed.
(** If the applications connect first, a broker that has read anything but connects and
    pongs has answered a connect on that connection before: nothing is sent ahead of the
    handshake, whatever the other clients are doing. *)
Theorem C81_handshake_first : forall E io h s got a mc t, reach E h s -> newids h <= 2 ^ 64 -> connects_first (s_log s) ->
  clock_fits a h -> (forall n o, In (n, o) (queued a (s_log s)) -> sendable_request o) -> brokers_read E io h got ->
  In mc (got a) -> command_type mc = Some t -> t <> 2%Z -> t <> 19%Z -> exists f, In (EvNet a (IFrame f)) h /\ to_inbound f = Ok InConnected.
Proof.
  intros E io h s got a mc t H Hn Cf Ck Q G I Ty N2 N19. destruct (read_from E io h s got a mc H Ck Q G I) as ([src o] & W & R).
  apply request_type in R. cbn [snd] in R. rewrite R in Ty. injection Ty as <-. pose proof (written_from E h s a src o H W) as X. destruct src as [n|]; [|subst o; now elim N19].
  destruct X as (Fw & c & q & Iq & A & F). assert (Nc : is_connect q = false) by (destruct q; try reflexivity; destruct F as (d & m & ->); now elim N2).
  apply in_split in Fw as (l1 & l2 & El). destruct (connect_before E h s l1 n a o l2 c q H Hn Cf El Iq Nc) as (m & cr & o' & Im & Fm).
  apply in_split in Fm as (p1 & p2 & Ep). apply (net_arrived E h s a _ H). apply (connect_answered E h s p1 m a o' cr c n a o p2 l2 H Im). rewrite El, Ep, <- app_assoc. reflexivity.
Qed.
Print Assumptions C81_handshake_first.
Lemma initial_filter_map {A B} (R : A -> B -> Prop) (f : A -> bool) (g : B -> bool) l m : (forall x y, R x y -> f x = g y) -> Forall2 R l m -> Forall2 R (filter f l) (filter g m).
Proof. intros E F. induction F as [|x y l m Rx F IH]; [constructor|]. cbn [filter]. rewrite (E x y Rx). destruct (g y); auto. Qed.
Lemma filter_split {A} (f : A -> bool) l : forall x r, filter f l = x :: r -> exists l1 l2, l = l1 ++ x :: l2 /\ forallb (fun y => negb (f y)) l1 = true.
Proof.
  induction l as [|y l IH]; intros x r X; [discriminate|]. cbn [filter] in X. destruct (f y) eqn:Fy.
  - injection X as -> _. exists [], l. auto.
  - destruct (IH x r X) as (l1 & l2 & -> & F). exists (y :: l1), l2. split; [reflexivity|]. cbn [forallb]. now rewrite Fy.
Qed.
Definition pong_out (x : option nat * outbound) : bool := match snd x with OPong => true | _ => false end.
Lemma pong_type x mc : request_of x mc -> negb (pong_out x) = negb (is_pong mc).
Proof. intros R. apply request_type in R. unfold is_pong. rewrite R. destruct x as [src []]; reflexivity. Qed.
Lemma written_queued E h s a : reach E h s -> initial (written a (s_log s)) (queued a (s_log s)).
Proof.
  intros H. destruct (reach_queues E h s H) as [Q _]. destruct (get_conn a (s_conns s)) as [k|] eqn:K.
  - destruct (q_out s Q a k K) as (lost & X & _). rewrite X. eexists. reflexivity.
  - destruct (q_none s Q a K) as (-> & -> & _). exists []. reflexivity.
Qed.
Lemma queued_split a l : forall p n o r, queued a l = p ++ (Some n, o) :: r -> exists l1 l2, l = l1 ++ OForward n a o :: l2 /\ queued a l1 = p.
Proof.
  induction l as [|x l IH]; intros p n o r X; [destruct p; discriminate|].
  change (x :: l) with ([x] ++ l) in X. rewrite queued_app in X.
  assert (G : queued a [x] = [] \/ (exists m o', x = OForward m a o' /\ queued a [x] = [(Some m, o')]) \/ queued a [x] = [(None, OPong)]).
  { destruct x; auto; unfold queued; cbn [flat_map]; destruct (baddr_eqb a0 a) eqn:B; auto. apply baddr_eqb_spec in B. subst a0. right. left. eauto. }
  destruct G as [G|[(m & o' & -> & G)|G]]; pose proof G as G'; rewrite G in X; cbn [app] in X.
  - destruct (IH p n o r X) as (l1 & l2 & -> & A). exists (x :: l1), l2. split; [reflexivity|]. change (x :: l1) with ([x] ++ l1). now rewrite queued_app, G', A.
  - destruct p as [|y p].
    + injection X as -> -> _. exists [], l. auto.
    + injection X as <- X. destruct (IH p n o r X) as (l1 & l2 & -> & A). exists (OForward m a o' :: l1), l2. split; [reflexivity|]. change (OForward m a o' :: l1) with ([OForward m a o'] ++ l1). now rewrite queued_app, G', A.
  - destruct p as [|y p]; [discriminate X|]. injection X as <- X. destruct (IH p n o r X) as (l1 & l2 & -> & A). exists (x :: l1), l2. split; [reflexivity|]. change (x :: l1) with ([x] ++ l1). now rewrite queued_app, G', A.
Qed.
(** And if the transport fails for good, if at all, the first thing a broker reads on a
    connection, pongs aside, is a connect. *)
Theorem C81_connect_is_first : forall E io h s got a mc rest, reach E h s -> newids h <= 2 ^ 64 -> connects_first (s_log s) ->
  clock_fits a h -> (forall n o, In (n, o) (queued a (s_log s)) -> sendable_request o) -> brokers_read E io h got -> fails_for_good (attempts E a (io a) h) ->
  filter (fun x => negb (is_pong x)) (got a) = mc :: rest -> command_type mc = Some 2%Z.
Proof.
  intros E io h s got a mc rest H Hn Cf Ck Q G Fg Fi. destruct (got_written E io h s got a H Ck Fg Q G) as (mcs & [r ->] & F).
  apply (initial_filter_map _ (fun x => negb (pong_out x)) (fun x => negb (is_pong x)) _ _ pong_type) in F. rewrite filter_app, Fi in F. cbn [app] in F.
  inversion F as [|[src o] ? xs ? Rx Fr Ex]; subst. symmetry in Ex. clear F Fr. pose proof (request_type _ _ Rx) as Ty. cbn [snd] in Ty. rewrite Ty. clear Ty Rx.
  destruct (filter_split _ _ _ _ Ex) as (w1 & w2 & Ew & Np).
  assert (W : In (src, o) (written a (s_log s))) by (rewrite Ew; apply in_elt).
  pose proof (written_from E h s a src o H W) as X. destruct src as [n|].
  2:{ subst o. exfalso. assert (Y : In (None, OPong) (filter (fun x => negb (pong_out x)) (written a (s_log s)))) by (rewrite Ex; now left). apply filter_In in Y as [_ Y]. discriminate. }
  destruct X as (_ & c & q & Iq & A & Fo). destruct (is_connect q) eqn:Nc.
  { destruct q; try discriminate. destruct Fo as (d & m & ->). reflexivity. }
  exfalso. destruct (written_queued E h s a H) as [r' Wq]. rewrite Ew, <- app_assoc in Wq. cbn [app] in Wq. destruct (queued_split a (s_log s) w1 n o (w2 ++ r') Wq) as (l1 & l2 & El & Q1).
  destruct (connect_before E h s l1 n a o l2 c q H Hn Cf El Iq Nc) as (m & cr & o' & Im & Fm).
  assert (Y : In (Some m, o') w1). { rewrite <- Q1. unfold queued. apply in_flat_map. exists (OForward m a o'). split; [exact Fm|]. rewrite baddr_eqb_refl. now left. }
  rewrite forallb_forall in Np. specialize (Np _ Y). cbn [pong_out snd] in Np.
  destruct (c_fw E s (v_c E s (reach_all E h s H)) m a o') as (_ & q' & [c' Q'] & Fq); [rewrite El; apply in_app_iff; now left|].
  destruct (r_uniq s (v_r E s (reach_all E h s H)) _ _ _ _ _ Q' Im) as [_ ->]. destruct Fq as (d & mm & -> & _). discriminate.
Qed.
Print Assumptions C81_connect_is_first.

(** * A dropped client *)
Definition unissued (x : obs) : bool := match x with OIssue _ _ _ => false | _ => true end.
Lemma unissued_none c l : forallb unissued l = true -> requests c l = [].
Proof. induction l as [|x l IH]; auto. cbn [forallb]. intros H. apply andb_prop in H as [H1 H2]. unfold requests in *. cbn [flat_map]. rewrite (IH H2). destruct x; try reflexivity. discriminate. Qed.
Lemma unissued_cancel ns : forallb unissued (cancel_all ns) = true. Proof. induction ns; auto. Qed.
Lemma unissued_ends hs f : forallb unissued (ends_log hs f) = true.
Proof. apply forallb_forall. intros x Hx. apply ends_log_cancel in Hx as [n ->]. reflexivity. Qed.
Lemma unissued_stop s : forallb unissued (stop_log s) = true.
Proof. unfold stop_log. rewrite forallb_app. cbn. now rewrite unissued_cancel, unissued_ends. Qed.
Lemma fwd_unissued s id n o s' : fwd s id n o s' -> exists c, s_log s' = s_log s ++ c /\ forallb unissued c = true.
Proof. intros F. destruct F; [eexists; split; reflexivity|]. exists (stop_log s). split; [apply stop_log_eq|apply unissued_stop]. Qed.
Lemma sent_unissued s a ser i s' : sent s a ser i s' -> exists c, s_log s' = s_log s ++ c /\ forallb unissued c = true.
Proof. intros S. destruct S; [eexists; split; reflexivity|]. exists []. split; [symmetry; apply app_nil_r|reflexivity]. Qed.
(** Only a live client makes requests. *)
Lemma trans_issue E s e s' c : trans E s e s' -> ch_client (s_ch s c) = false -> exists l, s_log s' = s_log s ++ l /\ requests c l = [].
Proof.
  intros T Dr.
  assert (Q : forall l, s_log s' = s_log s ++ l -> forallb unissued l = true -> exists l, s_log s' = s_log s ++ l /\ requests c l = []) by (intros l X Y; exists l; split; [exact X|now apply unissued_none]).
  assert (Q0 : s_log s' = s_log s -> exists l, s_log s' = s_log s ++ l /\ requests c l = []) by (intros X; exists []; rewrite app_nil_r; auto).
  assert (D : forall t l, s_log t = s_log s ++ l -> forallb unissued l = true -> (exists d, s_log s' = s_log t ++ d /\ forallb unissued d = true) -> exists l, s_log s' = s_log s ++ l /\ requests c l = []).
  { intros t l Y U (d & Y' & U'). apply (Q (l ++ d)); [rewrite Y', Y, <- app_assoc; reflexivity|]. rewrite forallb_app, U. exact U'. }
  assert (Z : forall t l, s' = stop t -> s_log t = s_log s ++ l -> forallb unissued l = true -> exists l, s_log s' = s_log s ++ l /\ requests c l = []).
  { intros t l -> Y U. apply (D t l Y U). exists (stop_log t). split; [apply stop_log_eq|apply unissued_stop]. }
  destruct T; try (apply Q0; reflexivity);
    try (eapply Q; [reflexivity|first [reflexivity|apply unissued_ends]]; fail);
    try (eapply Z; [reflexivity|reflexivity|reflexivity]; fail);
    try (apply (Z s []); [reflexivity|symmetry; apply app_nil_r|reflexivity]);
    try (eapply D; [apply taken_log| |eapply fwd_unissued; eassumption]; cbn; apply unissued_cancel).
  - eexists. split; [reflexivity|]. unfold requests. cbn [flat_map]. destruct (Nat.eqb_spec h c) as [->|]; [congruence|reflexivity].
  - eapply Q; [reflexivity|]. destruct (ch_engine (s_ch s h)); [reflexivity|apply unissued_cancel].
  - eapply Q; [apply taken_log|]. cbn. apply unissued_cancel.
  - eapply Q; [apply taken_log|]. cbn. apply unissued_cancel.
  - refine (D _ _ _ _ (fwd_unissued _ _ _ _ _ H6)); [rewrite moved_log; apply taken_log|]. cbn. apply unissued_cancel.
  - refine (D _ _ _ _ (fwd_unissued _ _ _ _ _ H1)); [rewrite moved_log; reflexivity|reflexivity].
  - refine (D _ _ _ _ (fwd_unissued _ _ _ _ _ H0)); [rewrite moved_log; reflexivity|reflexivity].
  - refine (D _ _ _ _ (sent_unissued _ _ _ _ _ H0)); reflexivity.
  - refine (D _ _ _ _ (sent_unissued _ _ _ _ _ H4)); reflexivity.
Qed.
Lemma trans_nh E s e s' : trans E s e s' -> (s_nh s <= s_nh s')%nat.
Proof.
  intros T. destruct T; try exact (le_n _); try (pj; lia); try (rewrite stop_eq; exact (le_n _)).
  - destruct H5; [exact (le_n _)|rewrite stop_eq; exact (le_n _)].
  - destruct H6; rewrite ?stop_eq; pj; rewrite moved_nh; exact (le_n _).
  - destruct H1; rewrite ?stop_eq; pj; rewrite moved_nh; exact (le_n _).
  - destruct H0; rewrite ?stop_eq; pj; rewrite moved_nh; exact (le_n _).
  - destruct H0; exact (le_n _).
  - destruct H4; exact (le_n _).
Qed.
Lemma requests_app c l m : requests c (l ++ m) = requests c l ++ requests c m. Proof. apply flat_map_app. Qed.
Lemma dropped_issues E h : forall s s2 c, inv E s -> run E s h = Some s2 -> (c < s_nh s)%nat -> ch_client (s_ch s c) = false -> requests c (s_log s2) = requests c (s_log s).
Proof.
  induction h as [|e h IH]; intros s s2 c I R Lt Dr; cbn [run] in R; [congruence|].
  destruct (step E s e) as [s1|] eqn:S; [|discriminate]. pose proof (step_trans _ _ _ _ (v_wf E s I) S) as T.
  destruct (trans_gone E s e s1 c (v_h E s I) T Lt Dr) as [A _]. pose proof (trans_nh E s e s1 T) as Le.
  rewrite (IH s1 s2 c (inv_trans E s e s1 I T) R ltac:(lia) A). destruct (trans_issue E s e s1 c T Dr) as (l & -> & L). now rewrite requests_app, L, app_nil_r.
Qed.
Lemma drop_requests E h1 s1 c h2 s : reach E h1 s1 -> reach E (h1 ++ EvDropClient c :: h2) s -> requests c (s_log s) = requests c (s_log s1).
Proof.
  intros H1 H. pose proof (reach_all E h1 s1 H1) as I. unfold reach in H, H1. rewrite run_app, H1 in H. cbn [run] in H.
  destruct (step E s1 (EvDropClient c)) as [s2|] eqn:S; [|discriminate]. pose proof (step_trans _ _ _ _ (v_wf E s1 I) S) as T. cbn [step] in S.
  destruct (ch_client (s_ch s1 c) && ch_use (s_ch s1 c)) eqn:G; [|discriminate]. apply andb_prop in G as [G _]. pose proof (h_live s1 (v_h E s1 I) c G) as Lt.
  pose proof (trans_nh E s1 _ s2 T) as Le.
  assert (X : ch_client (s_ch s2 c) = false /\ requests c (s_log s2) = requests c (s_log s1)).
  { injection S as <-. destruct (ch_engine (s_ch s1 c)); pj; unfold set_ch; rewrite Nat.eqb_refl; (split; [reflexivity|]); [reflexivity|].
    change (requests c (s_log s1 ++ cancel_all (queued_requests (s_ch s1 c))) = requests c (s_log s1)). rewrite requests_app, (unissued_none c _ (unissued_cancel _)). apply app_nil_r. }
  destruct X as [X1 X2]. rewrite <- X2. exact (dropped_issues E h2 s2 s c (inv_trans E s1 _ s2 I T) H ltac:(lia) X1).
Qed.
(** Once a consumer or producer is dropped, it makes no further requests: the only
    commands brokers read from it from then on are ones it had asked for before, in
    that order. Nothing tells a broker that it is gone. *)
Theorem C81_dropped_says_no_more : forall E io h1 s1 c h2 s id rs made more got, let a := broker_of (e_cfg E) rs in let h := h1 ++ EvDropClient c :: h2 in
  reach E h1 s1 -> reach E h s -> newids h <= 2 ^ 64 -> In (OReg c id) (s_log s) ->
  built id rs made -> requests c (s_log s1) = made ++ more -> (forall cr, ~ In (OConnect cr) more) ->
  (forall b, clock_fits b h) -> (forall b n o, In (n, o) (queued b (s_log s)) -> sendable_request o) -> brokers_read E io h got ->
  requests c (s_log s) = requests c (s_log s1) /\
  (exists xs, subseq xs (filter (own id) (requests c (s_log s1))) /\ Forall2 (says (e_cfg E)) xs (filter (from_client id) (got a))) /\
  (forall b, b <> a -> filter (from_client id) (got b) = []).
Proof.
  intros E io h1 s1 c h2 s id rs made more got a h H1 H Hn Rg B Rq Nm Ck Q G. pose proof (drop_requests E h1 s1 c h2 s H1 H) as D.
  split; [exact D|]. rewrite <- D in *. destruct (C75_broker_reads_client E io h s c id rs made more got H Hn Rg B Rq Nm Ck Q G) as (X & _ & Y). split; [exact X|exact Y].
Qed.
Print Assumptions C81_dropped_says_no_more.

(** * A concrete case *)
(** A consumer behind the proxy that is dropped with a flow request unwritten. *)
Definition v_one : list event := firstn 31 w_events ++ [EvIssue 0%nat (OFlow 0 2); EvClient 0%nat].
Definition v_two : list event := [EvWrite xP 0 true; EvNet xP (f_msg 0 1 (str "a")); EvConn xP].
Definition v_events : list event := v_one ++ EvDropClient 0%nat :: v_two.
Definition v_log1 : list obs := Eval vm_compute in log_of v_one.
Lemma v_log1_eq : log_of v_one = v_log1. Proof. vm_compute. reflexivity. Qed.
Definition v_log : list obs := Eval vm_compute in log_of v_events.
Lemma v_log_eq : log_of v_events = v_log. Proof. vm_compute. reflexivity. Qed.
Lemma v_writes b : writes_succeed xE b (z_io b) v_events.
Proof.
  split; [|intros now ok X; unfold v_events, v_one, v_two, w_events in X; cbn [firstn app In] in X; PropReceipt.walk X; injection X as _ <- _; reflexivity].
  destruct (baddr_dec b xA) as [->|N]; [apply all_ok_check; vm_compute; reflexivity|].
  destruct (baddr_dec b xP) as [->|N2]; [apply all_ok_check; vm_compute; reflexivity|].
  intros x X. exfalso. rewrite no_offers in X; [destruct X|]. clear X. intros now ok Y. unfold v_events, v_one, v_two, w_events in Y; cbn [firstn app In] in Y; PropReceipt.walk Y; injection Y; intros _ _ Y'; (now apply N) || (now apply N2).
Qed.
Lemma v_sendable a m o : In (m, o) (SpecEngine.queued a v_log) -> sendable_request o.
Proof.
  intros X. unfold SpecEngine.queued in X. apply in_flat_map in X as (x & Hx & Hy).
  assert (S : Forall (fun x => match x with OForward _ _ o => sendable_request o | _ => True end) v_log).
  { unfold v_log. repeat (apply Forall_cons; [solve [exact I|x_fit]|]). apply Forall_nil. }
  rewrite Forall_forall in S. specialize (S x Hx).
  destruct x as [| | | | |n b o1| | | | | | | | | | | | |]; try contradiction.
  - destruct (baddr_eqb b a); [|contradiction]. destruct Hy as [[= _ <-]|[]]. exact S.
  - exfalso. unfold v_log in Hx. cbn [In] in Hx. PropReceipt.walk Hx.
Qed.
Lemma v_connects : connects_first v_log.
Proof.
  intros c o os X. destruct c as [|c].
  - assert (Y : hd_error (requests 0%nat v_log) = Some plain_connect) by (vm_compute; reflexivity). rewrite X in Y. injection Y as ->. unfold plain_connect. eauto.
  - exfalso. assert (Y : requests (S c) v_log = []) by reflexivity. rewrite X in Y. discriminate.
Qed.
Example C81_meets : exists s1 s, let a := broker_of (e_cfg xE) x_rs in let got := read_everything xE z_io v_events in
  a = xP /\ reach xE v_one s1 /\ reach xE v_events s /\ newids v_events <= 2 ^ 64 /\ In (OReg 0%nat 0) (s_log s) /\ connects_first (s_log s) /\
  built 0 x_rs (p_made 1) /\ requests 0%nat (s_log s1) = p_made 1 ++ [] /\
  (forall b, clock_fits b v_events) /\ (forall b n o, In (n, o) (SpecEngine.queued b (s_log s)) -> sendable_request o) /\ brokers_read xE z_io v_events got /\
  fails_for_good (attempts xE a (z_io a) v_events) /\
  map command_type (got xP) = [Some 2; Some 23; Some 4; Some 11]%Z /\ map command_type (got xA) = [Some 2; Some 23]%Z.
Proof.
  destruct (log_reach v_one) as (s1 & R1 & L1); [rewrite v_log1_eq; discriminate|]. rewrite v_log1_eq in L1.
  destruct (log_reach v_events) as (s & R & L); [rewrite v_log_eq; discriminate|]. rewrite v_log_eq in L.
  assert (Sd : forall b n o, In (n, o) (SpecEngine.queued b (s_log s)) -> sendable_request o) by (rewrite L; apply v_sendable).
  exists s1, s. cbv zeta. change (broker_of (e_cfg xE) x_rs) with xP. split; [reflexivity|]. split; [exact R1|]. split; [exact R|]. split; [vm_compute; discriminate|].
  split; [rewrite L; unfold v_log; cbn [In]; repeat (first [left; reflexivity|right])|]. split; [rewrite L; exact v_connects|].
  split; [left; exists (str "n"), (str "t"), (str "s"), 1; vm_compute; reflexivity|]. split; [rewrite L1; vm_compute; reflexivity|].
  split; [intros b; exact (proj2 (v_writes b))|]. split; [exact Sd|].
  split; [apply (read_all xE z_io v_events s R v_writes Sd)|].
  split; [exact (ok_for_good _ (proj1 (v_writes xP)))|]. split; vm_compute; reflexivity.
Qed.
