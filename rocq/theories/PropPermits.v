(** C80: flow permits from the consumer to the broker and back. *)
From Verif Require Import Bytes Errors Wire Proto Codec SpecFrame SpecCodec Address Message SpecMessage Client SpecKeys SpecClient Producer Consumer SpecConsumer Engine SpecEngine SpecEngine2 Sink SpecStack SpecAnswered SpecLoop SpecPermits ConsumerFacts FlowFacts SinkFacts EngineFacts EngineInv EngineReq EngineEv EngineConn EngineLog EngineView EngineQueue EngineRoute EngineNet EngineEx SpecTurn TurnFacts CodecFacts MessageFacts PropCodec PropMessage PropClient PropProducer PropConsumer PropFlow PropEngine PropEngine2 PropEngine6 PropStack PropReceipt PropRoute PropDeliver PropSends PropReads PropTurn PropAnswered PropLoop PropBatchFlow.
Open Scope N_scope.

Lemma permits_filter id mcs : permits_read id (filter (from_client id) mcs) = permits_read id mcs.
Proof.
  unfold permits_read. induction mcs as [|mc l IH]; [reflexivity|]. cbn [filter flat_map]. destruct (from_client id mc) eqn:F; [cbn [flat_map]; now rewrite IH|].
  rewrite IH. replace (permits_in id mc) with (@nil N); [reflexivity|]. symmetry. unfold permits_in, from_client in *.
  destruct (get_z 1 (mc_cmd mc)) as [ty|]; [|reflexivity]. destruct (Z.eq_dec ty 11) as [->|N].
  - cbn [client_field] in F. destruct (get_m 11 (mc_cmd mc)) as [s|]; [|reflexivity]. destruct (get_z 1 s) as [z|]; [|reflexivity]. rewrite F. now destruct (get_z 2 s).
  - clear - N. destruct ty as [|p|p]; try reflexivity. repeat (destruct p as [p|p|]; try reflexivity). now elim N.
Qed.
Lemma asked_filter id os : permits_asked id (filter (own id) os) = permits_asked id os.
Proof.
  unfold permits_asked. induction os as [|o l IH]; [reflexivity|]. cbn [filter flat_map]. destruct (own id o) eqn:O; cbn [flat_map]; rewrite IH; [reflexivity|].
  destruct o; try reflexivity. cbn [own] in O. now rewrite O.
Qed.
Lemma denotes_permits id now o mc : denotes now o mc -> permits_in id mc = permits_asked id [o].
Proof.
  intros D.
  assert (Z : forall ty k s0, carries mc ty k s0 -> ty <> 11%Z -> permits_in id mc = []).
  { intros ty k s0 (X & _) Hne. unfold permits_in. rewrite X. clear X. destruct ty as [|p|p]; try reflexivity. repeat (destruct p as [p|p|]; try reflexivity). now elim Hne. }
  destruct o as [| | |p|acks| | | |cid n|]; cbn [denotes] in D;
    try (change (permits_asked id [_]) with (@nil N); decompose [and ex] D; match goal with X : carries mc _ _ _ |- _ => apply (Z _ _ _ X); discriminate end).
  destruct D as (_ & s & (D1 & D2 & _) & D3 & D4). unfold permits_in, permits_asked. unfold int_field in *. rewrite D1, D2, D3, D4, same_number, N2Z.id. cbn [flat_map]. now rewrite app_nil_r.
Qed.
Lemma said_permits cfg id xs ys : Forall2 (says cfg) xs ys -> permits_read id ys = permits_asked id xs.
Proof.
  intros F. induction F as [|o mc xs ys (now & _ & D) F IH]; [reflexivity|]. unfold permits_read, permits_asked in *. cbn [flat_map]. rewrite IH. f_equal.
  destruct o; try (rewrite (denotes_permits id _ _ _ D); unfold permits_asked; cbn [flat_map]; rewrite ?app_nil_r; reflexivity).
  destruct D as (d & m & D). rewrite (denotes_permits id _ _ _ D). reflexivity.
Qed.
Lemma subseq_asked id a b : subseq a b -> subseq (permits_asked id a) (permits_asked id b).
Proof.
  intros S. unfold permits_asked. induction S as [|x a b S IH|x a b S IH]; [constructor| |]; cbn [flat_map].
  - destruct x; try exact IH. destruct (_ =? id); [now constructor|exact IH].
  - destruct x; try exact IH. destruct (_ =? id); [now constructor|exact IH].
Qed.
Lemma subseq_total a b : subseq a b -> total a <= total b.
Proof. intros S. induction S as [|x a b S IH|x a b S IH]; unfold total in *; cbn [fold_right]; lia. Qed.

(** A consumer has been built on client [c] and its flow requests are the initial one and
    those of its calls. Whatever the transports do and whatever part of the bytes the
    brokers have read: the permits its broker has read are those it granted, in order,
    each at most once, so never more than it granted; exactly the first ones if the
    transport, once it has failed, takes no more bytes. No other connection carries any. *)
Theorem C80_broker_reads_permits : forall T (value : bytes -> option T) E io h s c id name topic sub P rs made more hc cs got, let a := broker_of (e_cfg E) rs in
  reach E h s -> newids h <= 2 ^ 64 -> In (OReg c id) (s_log s) ->
  exec (consumer_connect id name topic sub P Client.fresh) rs = (made, Some (Ok tt)) -> requests c (s_log s) = made ++ more -> (forall cr, ~ In (OConnect cr) more) ->
  reaches value P hc cs -> initial (permits_asked id (requests c (s_log s))) (2 * P :: grants (c_log cs)) ->
  (forall b, clock_fits b h) -> (forall b n o, In (n, o) (queued b (s_log s)) -> sendable_request o) -> brokers_read E io h got ->
  subseq (permits_read id (got a)) (2 * P :: grants (c_log cs)) /\ total (permits_read id (got a)) <= granted P cs /\
  (fails_for_good (attempts E a (io a) h) -> initial (permits_read id (got a)) (2 * P :: grants (c_log cs))) /\
  forall b, b <> a -> permits_read id (got b) = [].
Proof.
  intros T value E io h s c id name topic sub P rs made more hc cs got a H Hn Rg X Rq Nm Re Fl Ck Q G.
  assert (Bu : built id rs made) by (left; eauto).
  destruct (C75_broker_reads_client E io h s c id rs made more got H Hn Rg Bu Rq Nm Ck Q G) as ((xs & Sx & Fx) & K & Ot). fold a in Fx, K, Ot.
  assert (S : subseq (permits_read id (got a)) (2 * P :: grants (c_log cs))).
  { rewrite <- permits_filter, (said_permits _ id _ _ Fx). eapply subseq_trans; [apply subseq_asked; exact Sx|]. rewrite asked_filter. now apply initial_subseq. }
  split; [exact S|]. split; [apply subseq_total in S; exact S|]. split.
  - intros Fg. destruct (K Fg) as [k F]. rewrite <- permits_filter, (said_permits _ id _ _ F). eapply initial_trans; [|exact Fl]. rewrite <- (asked_filter id (requests c (s_log s))).
    apply initial_flat. exists (skipn k (filter (own id) (requests c (s_log s)))). symmetry. apply firstn_skipn.
  - intros b Hb. rewrite <- permits_filter, (Ot b Hb). reflexivity.
Qed.
Print Assumptions C80_broker_reads_permits.

(** The entries that have arrived for the consumer are the first ones its broker was
    heard sending to it. *)
Lemma arrived_sent E h s c id name topic sub permits rs made more hc : let a := broker_of (e_cfg E) rs in
  reach E h s -> newids h <= 2 ^ 64 -> In (OReg c id) (s_log s) ->
  exec (consumer_connect id name topic sub permits Client.fresh) rs = (made, Some (Ok tt)) -> requests c (s_log s) = made ++ more -> (forall cr, ~ In (OConnect cr) more) ->
  only_after_subscribe c id (s_log s) ->
  initial (SpecConsumer.arrivals hc) (gots c (s_log s) ++ (if ch_client (s_ch s c) then ch_down (s_ch s c) else [])) ->
  initial (messages (SpecConsumer.arrivals hc)) (entries_for id a h).
Proof.
  intros a H Hn Rg X Rq Nm Oa [ra Ar].
  destruct (built_settled E (s_log s) c id name topic sub permits rs made more X Rq Nm) as [Ord Ea]. fold a in Ea.
  pose proof (inbox_all E h s c id a H Hn Rg Oa Ord Ea) as In1.
  destruct (C38_received_in_order E h s c H Hn) as [Ri Rc]. fold (svc E) in Ri, Rc. rewrite look_gots in Ri, Rc.
  destruct (C38_taken_in_order E h s a H) as [[rt Ti] _]. rewrite (reach_nets E h s a H) in Ti.
  assert (Y : initial (messages (gots c (s_log s) ++ (if ch_client (s_ch s c) then ch_down (s_ch s c) else []))) (messages_for id (events (nets a h)))).
  { rewrite Ti, messages_for_app, <- In1, messages_app. destruct (ch_client (s_ch s c)) eqn:Cl.
    - rewrite <- (Rc eq_refl). now eexists.
    - cbn [messages flat_map]. rewrite app_nil_r. eapply initial_trans; [exact Ri|]. now eexists. }
  eapply initial_trans; [|exact Y]. rewrite Ar, messages_app. now eexists.
Qed.
Lemma made_good_mono T (value : bytes -> option T) m a b : initial a b -> all_made_good value m a <= all_made_good value m b.
Proof. intros [r ->]. unfold all_made_good. rewrite map_app, total_app. lia. Qed.
Lemma entries_app id a g h : entries_for id a (g ++ h) = entries_for id a g ++ entries_for id a h.
Proof. unfold entries_for, nets, events. now rewrite !flat_map_app, messages_for_app. Qed.
Lemma after_app E g h s t : reach E (g ++ h) s -> reach E g t -> initial (s_log t) (s_log s).
Proof.
  intros H Ht. unfold reach in *. rewrite run_app in H. destruct (run E sys_init g) as [t'|] eqn:R; [|discriminate]. injection Ht as ->.
  destruct (run_log E h t s (reach_all E g t R) H) as [l L]. now exists l.
Qed.
(** A consumer has been built by the end of [h1]. What reading the entries its broker has
    sent to it can make good is less than the window, but they held all of the initial
    permits. Then the broker never sends it anything again, if it keeps to the permits it
    has read: no call ever grants more. *)
Theorem C80_stalls : forall T (value : bytes -> option T) m E io h1 h2 s1 s c id name topic sub P rs made more hc got, let a := broker_of (e_cfg E) rs in
  reach E h1 s1 -> reach E (h1 ++ h2) s -> newids (h1 ++ h2) <= 2 ^ 64 -> In (OReg c id) (s_log s1) ->
  exec (consumer_connect id name topic sub P Client.fresh) rs = (made, Some (Ok tt)) -> initial made (requests c (s_log s1)) -> requests c (s_log s) = made ++ more -> (forall cr, ~ In (OConnect cr) more) ->
  consumes value m P E c id (h1 ++ h2) hc -> only_after_subscribe c id (s_log s) ->
  (forall b, clock_fits b (h1 ++ h2)) -> (forall b n o, In (n, o) (queued b (s_log s)) -> sendable_request o) -> read_along E io (h1 ++ h2) got ->
  all_made_good value m (entries_for id a h1) < P -> 2 * P <= size_of (entries_for id a h1) -> keeps_to_permits id a got h1 h2 ->
  entries_for id a h2 = [] /\ total (permits_read id (got (h1 ++ h2) a)) <= 2 * P.
Proof.
  intros T value m E io h1 h2 s1 s c id name topic sub P rs made more hc got a H1 H Hn Rg X [more1 Rq1] Rq Nm Co Oa Ck Q Ra Low All Kp.
  assert (At : forall g1 g2, h2 = g1 ++ g2 -> entries_for id a g1 = [] -> total (permits_read id (got (h1 ++ g1) a)) <= 2 * P).
  { intros g1 g2 Eh Ee.
    assert (Eg : h1 ++ h2 = (h1 ++ g1) ++ g2) by (rewrite Eh, app_assoc; reflexivity).
    assert (exists t, reach E (h1 ++ g1) t) as [t Ht].
    { unfold reach in *. rewrite Eg, run_app in H. destruct (run E sys_init (h1 ++ g1)) as [t|]; [now exists t|discriminate]. }
    assert (L1 : initial (s_log s1) (s_log t)) by (exact (after_app E h1 g1 t s1 Ht H1)).
    assert (L2 : initial (s_log t) (s_log s)) by (apply (after_app E (h1 ++ g1) g2 s t); [rewrite <- Eg; exact H|exact Ht]).
    assert (Hn' : newids (h1 ++ g1) <= 2 ^ 64) by (rewrite Eg in Hn; unfold newids in *; rewrite filter_app, app_length in Hn; lia).
    assert (Rg' : In (OReg c id) (s_log t)) by (destruct L1 as [r ->]; apply in_app_iff; now left).
    assert (exists more', requests c (s_log t) = made ++ more' /\ initial more' more) as (more' & Rq' & Im).
    { destruct L1 as [r1 L1], L2 as [r2 L2]. exists (more1 ++ requests c r1). rewrite L1. unfold requests at 1. rewrite flat_map_app. fold (requests c (s_log s1)). rewrite Rq1, <- app_assoc. split; [reflexivity|].
      exists (requests c r2). rewrite L2, L1 in Rq. unfold requests at 1 in Rq. rewrite !flat_map_app in Rq. fold (requests c (s_log s1)) (requests c r1) (requests c r2) in Rq. rewrite Rq1, <- !app_assoc in Rq. apply app_inv_head in Rq. rewrite <- Rq, <- !app_assoc. reflexivity. }
    assert (Nm' : forall cr, ~ In (OConnect cr) more') by (intros cr Y; apply (Nm cr); destruct Im as [r ->]; apply in_app_iff; now left).
    destruct (Co (h1 ++ g1) g2 t Eg Ht) as (cs & Re & Rb & Ar & Fl).
    destruct (along E io (h1 ++ h2) s got (h1 ++ g1) g2 t H Ck Q Ra Eg Ht) as (Ck' & Q' & _).
    assert (G : brokers_read E io (h1 ++ g1) (got (h1 ++ g1))) by (intros b; exact (proj1 (Ra (h1 ++ g1) g2 Eg b))).
    destruct (C80_broker_reads_permits T value E io (h1 ++ g1) t c id name topic sub P rs made more' (hc (h1 ++ g1)) cs (got (h1 ++ g1)) Ht Hn' Rg' X Rq' Nm' Re Fl Ck' Q' G) as (_ & Le & _). fold a in Le.
    assert (Oa' : only_after_subscribe c id (s_log t)).
    { intros l1 b ser d l2 El D. destruct L2 as [r L2]. apply (Oa l1 b ser d (l2 ++ r)); [rewrite L2, El, <- app_assoc; reflexivity|exact D]. }
    pose proof (arrived_sent E (h1 ++ g1) t c id name topic sub P rs made more' (hc (h1 ++ g1)) Ht Hn' Rg' X Rq' Nm' Oa' Ar) as Se. fold a in Se.
    rewrite entries_app, Ee, app_nil_r in Se. pose proof (made_good_mono T value m _ _ Se) as Mg.
    assert (Gr : grants (c_log cs) = []) by (apply (C80_no_grants_below_window T value m P (hc (h1 ++ g1)) cs Rb Re); lia).
    unfold granted in Le. rewrite Gr in Le. cbn [total fold_right] in Le. lia. }
  assert (None : forall g1 g2, h2 = g1 ++ g2 -> entries_for id a g1 = []).
  { intros g1. induction g1 as [|e g1 IH] using rev_ind; intros g2 Eh; [reflexivity|]. rewrite <- app_assoc in Eh. cbn [app] in Eh. pose proof (IH _ Eh) as IH'. rewrite entries_app, IH'. cbn [app].
    destruct e as [| | | | | | | | | | | | | | | |b [f| | |]]; try reflexivity; unfold entries_for, nets; cbn [flat_map].
    all: destruct (baddr_eqb b a) eqn:B; [|reflexivity]; try reflexivity.
    apply baddr_eqb_spec in B. subst b. cbn [app]. unfold events. cbn [flat_map]. destruct (to_inbound f) as [i| |] eqn:I; try reflexivity. destruct i; try reflexivity.
    cbn [app messages_for flat_map]. destruct (N.eqb_spec (d_cid d) id) as [D|]; [|reflexivity]. exfalso.
    pose proof (Kp g1 f d g2 Eh I D) as K. pose proof (At g1 _ Eh IH') as K'. rewrite entries_app, IH', app_nil_r in K. lia. }
  assert (N2 : entries_for id a h2 = []) by (apply (None h2 []); now rewrite app_nil_r).
  split; [exact N2|]. apply (At h2 []); [now rewrite app_nil_r|exact N2].
Qed.
Print Assumptions C80_stalls.

Lemma subseq_same {A} (a b : list A) : subseq a b -> (length b <= length a)%nat -> a = b.
Proof.
  intros S. assert (L : forall (x y : list A), subseq x y -> (length x <= length y)%nat) by (intros x y Z; induction Z; cbn; lia).
  induction S as [l|x a b S IH|x a b S IH]; intros Le.
  - destruct l; [reflexivity|cbn in Le; lia].
  - f_equal. apply IH. cbn in Le. lia.
  - apply L in S. cbn in Le. lia.
Qed.
Lemma flows_sum {T} P (log : list (cobs T)) : forall n, flows_exact P n log ->
  total (grants log) + since_flow n log = P * N.of_nat (length (grants log)) + n + N.of_nat (length (returned log)).
Proof.
  induction log as [|o l IH]; intros n F; [change (0 + n = P * 0 + n + 0); lia|]. destruct o as [g|t k r].
  - destruct F as [-> F]. change (grants (Flowed (P + n) :: l)) with ((P + n) :: grants l). change (returned (Flowed (P + n) :: l)) with (returned l).
    change (since_flow n (Flowed (P + n) :: l)) with (since_flow 0 l). specialize (IH 0 F). unfold total in *. cbn [fold_right length]. lia.
  - destruct r as [ms|e|].
    + change (grants (Returned t k (Ok ms) :: l)) with (grants l). change (returned (Returned t k (Ok ms) :: l)) with (ms ++ returned l).
      change (since_flow n (Returned t k (Ok ms) :: l)) with (since_flow (n + N.of_nat (length ms)) l). rewrite app_length. specialize (IH _ F). lia.
    + exact (IH n F).
    + exact (IH n F).
Qed.
(** A consumer read by calls that do not overlap, from unbatched entries or with
    next_batch only: whenever a call waits for an event, the permits granted exceed the
    messages returned by more than the window. If the broker has read all flow commands
    of the consumer, so do the permits it has read. *)
Theorem C80_permits_left : forall T (value : bytes -> option T) E io h s c id name topic sub P rs made more hc cs t got, let a := broker_of (e_cfg E) rs in
  reach E h s -> newids h <= 2 ^ 64 -> In (OReg c id) (s_log s) ->
  exec (consumer_connect id name topic sub P Client.fresh) rs = (made, Some (Ok tt)) -> requests c (s_log s) = made ++ more -> (forall cr, ~ In (OConnect cr) more) ->
  0 < P < 2 ^ 30 -> (forall u n, In (Start u (NextBatch n)) hc -> N.of_nat n < 2 ^ 30) -> one_at_a_time value P hc ->
  (forall i, In i (SpecConsumer.arrivals hc) -> single_event i) \/ only_next_batch hc ->
  reaches value P hc cs -> permits_asked id (requests c (s_log s)) = 2 * P :: grants (c_log cs) -> waiting value t cs ->
  (forall b, clock_fits b h) -> (forall b n o, In (n, o) (queued b (s_log s)) -> sendable_request o) -> brokers_read E io h got ->
  length (permits_read id (got a)) = length (permits_asked id (requests c (s_log s))) ->
  N.of_nat (length (returned (c_log cs))) + P < total (permits_read id (got a)).
Proof.
  intros T value E io h s c id name topic sub P rs made more hc cs t got a H Hn Rg X Rq Nm HP Hs On Sg Re Fl Wt Ck Q G Le.
  assert (Fl' : initial (permits_asked id (requests c (s_log s))) (2 * P :: grants (c_log cs))) by (rewrite Fl; apply initial_refl).
  destruct (C80_broker_reads_permits T value E io h s c id name topic sub P rs made more hc cs got H Hn Rg X Rq Nm Re Fl' Ck Q G) as (S & _ & _). fold a in S.
  rewrite Fl in Le. rewrite (subseq_same _ _ S) by (rewrite Le; lia).
  pose proof (C30_exact_without_overlap T value P hc cs HP Hs On Sg Re) as Fx. pose proof (C30_refilled_before_waiting T value P hc cs t HP Hs On Sg Re Wt) as Lt.
  apply flows_sum in Fx. cbn [total fold_right]. fold (total (grants (c_log cs))). nia.
Qed.
Print Assumptions C80_permits_left.
(** In particular, a consumer read with next_message from unbatched entries does not
    stall: when a call waits, everything sent has arrived and the broker has read all flow
    commands, the broker may send more than a whole window of further messages. *)
Theorem C80_no_stall : forall T (value : bytes -> option T) E io h s c id name topic sub P rs made more hc cs t got, let a := broker_of (e_cfg E) rs in
  reach E h s -> newids h <= 2 ^ 64 -> In (OReg c id) (s_log s) ->
  exec (consumer_connect id name topic sub P Client.fresh) rs = (made, Some (Ok tt)) -> requests c (s_log s) = made ++ more -> (forall cr, ~ In (OConnect cr) more) ->
  0 < P -> 3 * P < 2 ^ 32 -> only_next_message hc -> one_at_a_time value P hc ->
  reaches value P hc cs -> permits_asked id (requests c (s_log s)) = 2 * P :: grants (c_log cs) -> waiting value t cs ->
  (forall d, In d (entries_for id a h) -> exists k mid data v, d = DSingle k mid data /\ value data = Some v) ->
  messages (SpecConsumer.arrivals hc) = entries_for id a h ->
  (forall b, clock_fits b h) -> (forall b n o, In (n, o) (queued b (s_log s)) -> sendable_request o) -> brokers_read E io h got ->
  length (permits_read id (got a)) = length (permits_asked id (requests c (s_log s))) ->
  let sent := size_of (entries_for id a h) in
  total (permits_read id (got a)) = 2 * P * (sent / P + 1) /\ sent + P < total (permits_read id (got a)).
Proof.
  intros T value E io h s c id name topic sub P rs made more hc cs t got a H Hn Rg X Rq Nm HP HB Hm On Re Fl Wt Sg Ar Ck Q G Le sent.
  assert (Fl' : initial (permits_asked id (requests c (s_log s))) (2 * P :: grants (c_log cs))) by (rewrite Fl; apply initial_refl).
  destruct (C80_broker_reads_permits T value E io h s c id name topic sub P rs made more hc cs got H Hn Rg X Rq Nm Re Fl' Ck Q G) as (S & _ & _). fold a in S.
  rewrite Fl in Le. rewrite (subseq_same _ _ S) by (rewrite Le; lia).
  assert (Sd : SpecConsumer.delivered hc = sent).
  { unfold sent. rewrite <- Ar. unfold SpecConsumer.delivered, size_of. clear. induction (SpecConsumer.arrivals hc) as [|i l IH]; [reflexivity|]. unfold total in *. destruct i; cbn [map fold_right messages flat_map app] in *; try exact IH. now rewrite IH. }
  destruct (C28_permits_when_waiting T value P hc cs t HP HB Hm On) as (G1 & G2 & _); [|exact Re|exact Wt|rewrite Sd in *; cbn [total fold_right]; unfold granted, total in *; split; lia].
  intros i Hi. assert (D : forall d, i = InMessage d -> exists k mid data v, d = DSingle k mid data /\ value data = Some v).
  { intros d ->. apply Sg. rewrite <- Ar. unfold messages. apply in_flat_map. exists (InMessage d). split; [exact Hi|now left]. }
  split; intros d Ed; destruct (D d Ed) as (k & mid & data & v & -> & V); [eauto|]. cbn [unpack]. rewrite V. eauto.
Qed.
Print Assumptions C80_no_stall.

(** A consumer behind the proxy with a window of one: it has returned its first message
    and granted the window again before it waits for the next one. *)
Definition p_made (P : N) : list outbound := firstn 5 x_made ++ [OFlow 0 (2 * P)].
Definition p_events : list event := firstn 31 w_events ++
  [EvIssue 0%nat (OFlow 0 2); EvClient 0%nat; EvWrite xP 0 true; EvNet xP (f_msg 0 1 (str "a")); EvConn xP; EvRecv 0%nat; EvIssue 0%nat (OFlow 0 2); EvClient 0%nat; EvWrite xP 0 true].
Definition p_log : list obs := Eval vm_compute in log_of p_events.
Lemma p_log_eq : log_of p_events = p_log. Proof. vm_compute. reflexivity. Qed.
Definition p_d : inbound := Eval vm_compute in nth 0 (gots 0%nat p_log) InPing.
Definition p_hc : list cev :=
  [Start 0%nat NextMessage; Step 0%nat; Step 0%nat; Arrive p_d; Step 0%nat; Step 0%nat; Start 1%nat NextMessage; Step 1%nat; Step 1%nat; Step 1%nat; Step 1%nat].
Lemma crun_at P hc (Q : cons bytes -> Prop) : match crun (fun b => Some b) (cons_init P) hc with Some s => Q s | None => False end -> exists s, reaches (fun b => Some b) P hc s /\ Q s.
Proof. unfold reaches. destruct (crun (fun b => Some b) (cons_init P) hc) as [s|]; [now exists s|contradiction]. Qed.
Lemma p_writes b : writes_succeed xE b (z_io b) p_events.
Proof.
  split; [|intros now ok X; unfold p_events, w_events in X; cbn [firstn app In] in X; PropReceipt.walk X; injection X as _ <- _; reflexivity].
  destruct (baddr_dec b xA) as [->|N]; [apply all_ok_check; vm_compute; reflexivity|].
  destruct (baddr_dec b xP) as [->|N2]; [apply all_ok_check; vm_compute; reflexivity|].
  intros x X. exfalso. rewrite no_offers in X; [destruct X|]. clear X. intros now ok Y. unfold p_events, w_events in Y; cbn [firstn app In] in Y; PropReceipt.walk Y; injection Y; intros _ _ Y'; (now apply N) || (now apply N2).
Qed.
Lemma p_sendable a m o : In (m, o) (SpecEngine.queued a p_log) -> sendable_request o.
Proof.
  intros X. unfold SpecEngine.queued in X. apply in_flat_map in X as (x & Hx & Hy).
  assert (S : Forall (fun x => match x with OForward _ _ o => sendable_request o | _ => True end) p_log).
  { unfold p_log. repeat (apply Forall_cons; [solve [exact I|x_fit]|]). apply Forall_nil. }
  rewrite Forall_forall in S. specialize (S x Hx).
  destruct x as [| | | | |n b o1| | | | | | | | | | | | |]; try contradiction.
  - destruct (baddr_eqb b a); [|contradiction]. destruct Hy as [[= _ <-]|[]]. exact S.
  - exfalso. unfold p_log in Hx. cbn [In] in Hx. PropReceipt.walk Hx.
Qed.
Lemma p_turns : one_at_a_time (fun b : bytes => Some b) 1 p_hc.
Proof. unfold one_at_a_time, p_hc. vm_compute. repeat split; intros t; destruct t as [|[|t]]; reflexivity. Qed.
Lemma p_entries : entries_for 0 xP p_events = messages (SpecConsumer.arrivals p_hc).
Proof. vm_compute. reflexivity. Qed.
Lemma p_single : forall d, In d (messages (SpecConsumer.arrivals p_hc)) -> exists k mid data (v : bytes), d = DSingle k mid data /\ Some data = Some v.
Proof. intros d [<-|[]]. do 4 eexists. split; reflexivity. Qed.
Example C80_no_stall_meets : exists s cs, let a := broker_of (e_cfg xE) x_rs in let got := read_everything xE z_io p_events in let value := fun b : bytes => Some b in
  a = xP /\ reach xE p_events s /\ newids p_events <= 2 ^ 64 /\ In (OReg 0%nat 0) (s_log s) /\
  exec (consumer_connect 0 (str "n") (str "t") (str "s") 1 Client.fresh) x_rs = (p_made 1, Some (Ok tt)) /\ requests 0%nat (s_log s) = p_made 1 ++ [OFlow 0 2] /\
  only_next_message p_hc /\ one_at_a_time value 1 p_hc /\ reaches value 1 p_hc cs /\ permits_asked 0 (requests 0%nat (s_log s)) = 2 * 1 :: grants (c_log cs) /\ waiting value 1%nat cs /\
  (forall d, In d (entries_for 0 a p_events) -> exists k mid data v, d = DSingle k mid data /\ value data = Some v) /\
  messages (SpecConsumer.arrivals p_hc) = entries_for 0 a p_events /\ length (returned (c_log cs)) = 1%nat /\
  (forall b, clock_fits b p_events) /\ (forall b n o, In (n, o) (SpecEngine.queued b (s_log s)) -> sendable_request o) /\ brokers_read xE z_io p_events got /\
  fails_for_good (attempts xE a (z_io a) p_events) /\ permits_read 0 (got a) = [2; 2].
Proof.
  destruct (log_reach p_events) as (s & R & L); [rewrite p_log_eq; discriminate|]. rewrite p_log_eq in L.
  destruct (crun_at 1 p_hc (fun cs => (grants (c_log cs) = [2] /\ c_tasks cs 1%nat <> None /\ cstep (fun b => Some b) cs (Step 1%nat) = None) /\ length (returned (c_log cs)) = 1%nat)) as (cs & RC & (C1 & C2 & C3) & C4).
  { vm_compute. repeat split; discriminate. }
  assert (Sd : forall b n o, In (n, o) (SpecEngine.queued b (s_log s)) -> sendable_request o) by (rewrite L; apply p_sendable).
  exists s, cs. cbv zeta. change (broker_of (e_cfg xE) x_rs) with xP. split; [reflexivity|]. split; [exact R|]. split; [vm_compute; discriminate|].
  split; [rewrite L; unfold p_log; cbn [In]; repeat (first [left; reflexivity|right])|]. split; [vm_compute; reflexivity|]. split; [rewrite L; vm_compute; reflexivity|].
  split; [intros i o X; unfold p_hc in X; cbn [In] in X; PropReceipt.walk X; injection X; auto|].
  split; [exact p_turns|]. split; [exact RC|].
  split; [rewrite L, C1; vm_compute; reflexivity|]. split; [split; assumption|]. 
  split; [rewrite p_entries; exact p_single|]. split; [symmetry; exact p_entries|]. split; [exact C4|].
  split; [intros b; exact (proj2 (p_writes b))|]. split; [exact Sd|]. split; [apply (read_all xE z_io p_events s R p_writes Sd)|].
  split; [exact (ok_for_good _ (proj1 (p_writes xP)))|vm_compute; reflexivity].
Qed.

(** A consumer with a window of two reads with next_batch(1). It is sent one batch of
    four: the call returns one message, three are dropped, one permit is made good. The
    broker has used up the initial permits; nothing but a ping comes any more. *)
Definition q_batch : item := IFrame (mk_cmd (base 9 9 [(1, PInt 0); (2, PMsg [(1, PInt 7); (2, PInt 8)])])
  (Some (mk_payload [(1, PBytes (str "p")); (2, PInt 0); (3, PInt 0); (11, PInt 4)] (batch_part (str "a") ++ batch_part (str "b") ++ batch_part (str "c") ++ batch_part (str "d"))))).
Definition q_one : list event := firstn 31 w_events ++ [EvIssue 0%nat (OFlow 0 4); EvClient 0%nat; EvWrite xP 0 true; EvNet xP q_batch; EvConn xP; EvRecv 0%nat].
Definition q_two : list event := [EvNet xP f_ping].
Definition q_log1 : list obs := Eval vm_compute in log_of q_one.
Definition q_log : list obs := Eval vm_compute in log_of (q_one ++ q_two).
Lemma q_log1_eq : log_of q_one = q_log1. Proof. vm_compute. reflexivity. Qed.
Lemma q_log_eq : log_of (q_one ++ q_two) = q_log. Proof. vm_compute. reflexivity. Qed.
Definition q_d : inbound := Eval vm_compute in nth 0 (gots 0%nat q_log) InPing.
Definition q_hc (g : list event) : list cev :=
  if (length g <? length q_one)%nat then [] else [Start 0%nat (NextBatch 1); Step 0%nat; Step 0%nat; Arrive q_d; Step 0%nat; Step 0%nat; Start 1%nat (NextBatch 1)].
Lemma q_writes b : writes_succeed xE b (z_io b) (q_one ++ q_two).
Proof.
  split; [|intros now ok X; unfold q_one, q_two, w_events in X; cbn [firstn app In] in X; PropReceipt.walk X; injection X as _ <- _; reflexivity].
  destruct (baddr_dec b xA) as [->|N]; [apply all_ok_check; vm_compute; reflexivity|].
  destruct (baddr_dec b xP) as [->|N2]; [apply all_ok_check; vm_compute; reflexivity|].
  intros x X. exfalso. rewrite no_offers in X; [destruct X|]. clear X. intros now ok Y. unfold q_one, q_two, w_events in Y; cbn [firstn app In] in Y; PropReceipt.walk Y; injection Y; intros _ _ Y'; (now apply N) || (now apply N2).
Qed.
Lemma q_sendable a m o : In (m, o) (SpecEngine.queued a q_log) -> sendable_request o.
Proof.
  intros X. unfold SpecEngine.queued in X. apply in_flat_map in X as (x & Hx & Hy).
  assert (S : Forall (fun x => match x with OForward _ _ o => sendable_request o | _ => True end) q_log).
  { unfold q_log. repeat (apply Forall_cons; [solve [exact I|x_fit]|]). apply Forall_nil. }
  rewrite Forall_forall in S. specialize (S x Hx).
  destruct x as [| | | | |n b o1| | | | | | | | | | | | |]; try contradiction.
  - destruct (baddr_eqb b a); [|contradiction]. destruct Hy as [[= _ <-]|[]]. exact S.
  - exfalso. unfold q_log in Hx. cbn [In] in Hx. PropReceipt.walk Hx.
Qed.
Lemma q_causal : only_after_subscribe 0%nat 0 q_log.
Proof.
  unfold q_log. intros l1 b ser d l2 El D. splits El; try discriminate D.
  all: exists 4%nat, (str "t"), (str "s"), 2, Shared, true; split; cbn [In]; repeat (first [now left|right]).
Qed.
Lemma asked_initial id c l m : initial l m -> initial (permits_asked id (requests c l)) (permits_asked id (requests c m)).
Proof. intros X. apply initial_flat. apply initial_flat. exact X. Qed.
Lemma q_consumes s1 s : reach xE q_one s1 -> s_log s1 = q_log1 -> reach xE (q_one ++ q_two) s -> s_log s = q_log ->
  consumes (fun b => Some b) (ByBatch 1) 2 xE 0%nat 0 (q_one ++ q_two) q_hc.
Proof.
  intros H1 L1 H L g1 g2 t Eg Ht.
  assert (Fl : initial (permits_asked 0 (requests 0%nat (s_log t))) [4]).
  { assert (I : initial (s_log t) (s_log s)) by (apply (after_app xE g1 g2 s t); [rewrite <- Eg; exact H|exact Ht]).
    apply (asked_initial 0 0%nat) in I. rewrite L in I. exact I. }
  unfold q_hc. destruct (length g1 <? length q_one)%nat eqn:Lt.
  - exists (cons_init 2). split; [reflexivity|]. split; [intros u k []|]. split; [eexists; reflexivity|exact Fl].
  - apply Nat.ltb_ge in Lt. assert (exists g, g1 = q_one ++ g) as [g ->].
    { assert (E : firstn (length q_one) (q_one ++ q_two) = firstn (length q_one) (g1 ++ g2)) by now rewrite Eg.
      rewrite firstn_app, firstn_all, Nat.sub_diag in E. cbn [firstn] in E. rewrite app_nil_r, firstn_app in E. replace (length q_one - length g1)%nat with 0%nat in E by lia. cbn [firstn] in E. rewrite app_nil_r in E.
      exists (skipn (length q_one) g1). rewrite E at 1. symmetry. apply firstn_skipn. }
    destruct (crun_at 2 [Start 0%nat (NextBatch 1); Step 0%nat; Step 0%nat; Arrive q_d; Step 0%nat; Step 0%nat; Start 1%nat (NextBatch 1)] (fun cs => grants (c_log cs) = [])) as (cs & RC & C); [vm_compute; reflexivity|].
    exists cs. split; [exact RC|]. split; [|split; [|rewrite C; exact Fl]].
    + intros u k X. cbn [In] in X. PropReceipt.walk X; injection X as _ <-; (eexists; split; [reflexivity|vm_compute; discriminate]).
    + eapply initial_trans; [|eexists; reflexivity]. assert (I : initial (s_log s1) (s_log t)) by exact (after_app xE q_one g t s1 Ht H1).
      apply (initial_flat (fun x => match x with OGot c' i => if (c' =? 0)%nat then [i] else [] | _ => [] end)) in I. eapply initial_trans; [|exact I]. rewrite L1. exists []. vm_compute. reflexivity.
Qed.
Lemma q_nothing g1 f g2 d : q_two = g1 ++ EvNet xP (IFrame f) :: g2 -> to_inbound f = Ok (InMessage d) -> False.
Proof.
  unfold q_two. destruct g1 as [|e g1]; intros Eg.
  - injection Eg as <- _. vm_compute. discriminate.
  - injection Eg as _ Eg. destruct g1; discriminate.
Qed.
Example C80_stalls_meets : exists s1 s, let a := broker_of (e_cfg xE) x_rs in let got := read_everything xE z_io in let value := fun b : bytes => Some b in
  a = xP /\ reach xE q_one s1 /\ reach xE (q_one ++ q_two) s /\ newids (q_one ++ q_two) <= 2 ^ 64 /\ In (OReg 0%nat 0) (s_log s1) /\
  exec (consumer_connect 0 (str "n") (str "t") (str "s") 2 Client.fresh) x_rs = (p_made 2, Some (Ok tt)) /\ initial (p_made 2) (requests 0%nat (s_log s1)) /\ requests 0%nat (s_log s) = p_made 2 ++ [] /\
  consumes value (ByBatch 1) 2 xE 0%nat 0 (q_one ++ q_two) q_hc /\ only_after_subscribe 0%nat 0 (s_log s) /\
  (forall b, clock_fits b (q_one ++ q_two)) /\ (forall b n o, In (n, o) (SpecEngine.queued b (s_log s)) -> sendable_request o) /\ read_along xE z_io (q_one ++ q_two) got /\
  all_made_good value (ByBatch 1) (entries_for 0 a q_one) = 1 /\ size_of (entries_for 0 a q_one) = 4 /\ keeps_to_permits 0 a got q_one q_two.
Proof.
  destruct (log_reach q_one) as (s1 & R1 & L1); [rewrite q_log1_eq; discriminate|]. rewrite q_log1_eq in L1.
  destruct (log_reach (q_one ++ q_two)) as (s & R & L); [rewrite q_log_eq; discriminate|]. rewrite q_log_eq in L.
  assert (Sd : forall b n o, In (n, o) (SpecEngine.queued b (s_log s)) -> sendable_request o) by (rewrite L; apply q_sendable).
  exists s1, s. cbv zeta. change (broker_of (e_cfg xE) x_rs) with xP. split; [reflexivity|]. split; [exact R1|]. split; [exact R|]. split; [vm_compute; discriminate|].
  split; [rewrite L1; unfold q_log1; cbn [In]; repeat (first [left; reflexivity|right])|]. split; [vm_compute; reflexivity|].
  split; [rewrite L1; exists []; vm_compute; reflexivity|]. split; [rewrite L; vm_compute; reflexivity|].
  split; [exact (q_consumes s1 s R1 L1 R L)|]. split; [rewrite L; exact q_causal|].
  split; [intros b; exact (proj2 (q_writes b))|]. split; [exact Sd|]. split; [exact (everything_along xE z_io (q_one ++ q_two) s R q_writes Sd)|].
  split; [vm_compute; reflexivity|]. split; [vm_compute; reflexivity|].
  intros g1 f d g2 Eg I D. destruct (q_nothing g1 f g2 d Eg I).
Qed.
