(** C83: nothing is acknowledged that the application did not ask to be. *)
From Verif Require Import Bytes Errors Wire Proto Codec SpecFrame SpecCodec Address Message SpecMessage Client SpecKeys SpecClient Producer Consumer SpecConsumer Engine SpecEngine SpecEngine2 Sink SpecStack SpecAnswered SpecLoop ConsumerFacts SinkFacts EngineFacts EngineInv EngineReq EngineEv EngineConn EngineLog EngineView EngineQueue EngineRoute EngineNet EngineEx SpecTurn TurnFacts CodecFacts MessageFacts PropCodec PropMessage PropClient PropProducer PropConsumer PropEngine PropEngine2 PropEngine6 PropStack PropReceipt PropRoute PropDeliver PropSends PropReads PropAnswered PropLoop.
Open Scope N_scope.

(** Command [mc] is consumer [id]'s individual acknowledgement of message id [mid] alone. *)
Definition acks_alone (id : N) (mid : message) (mc : msg_cmd) : Prop :=
  exists ack, carries mc 10 10 ack /\ int_field 1 ack id /\ int_field 2 ack 0 /\ get_ms 3 ack = [mid].

Lemma filter_of_filter {A} (f g : A -> bool) l : (forall x, f x = true -> g x = true) -> filter f (filter g l) = filter f l.
Proof.
  intros I. induction l as [|x l IH]; [reflexivity|]. cbn [filter]. destruct (g x) eqn:G; cbn [filter]; [now rewrite IH|].
  destruct (f x) eqn:F; [rewrite (I x F) in G; discriminate|exact IH].
Qed.
Lemma subseq_filter_both {A} (f : A -> bool) a b : subseq a b -> subseq (filter f a) (filter f b).
Proof. induction 1 as [l|x a b S IH|x a b S IH]; [constructor| |]; cbn [filter]; destruct (f x); auto using sub_take, sub_skip. Qed.
Lemma filter_firstn {A} (f : A -> bool) l : forall k, exists j, filter f (firstn k l) = firstn j (filter f l).
Proof.
  induction l as [|x l IH]; intros k; [exists 0%nat; now rewrite firstn_nil|]. destruct k as [|k]; [exists 0%nat; reflexivity|].
  destruct (IH k) as [j Ej]. cbn [firstn filter]. destruct (f x); [exists (S j); cbn [firstn]; now rewrite Ej|exists j; exact Ej].
Qed.
Lemma ack_from id mc : ack_by id mc = true -> from_client id mc = true.
Proof.
  unfold ack_by, from_client. destruct (get_z 1 (mc_cmd mc)) as [t|]; [|discriminate]. intros X.
  destruct (Z.eq_dec t 10) as [->|N].
  - cbn [client_field]. destruct (get_m 10 (mc_cmd mc)); [exact X|discriminate].
  - exfalso. assert (Z : match t, get_m 10 (mc_cmd mc) with 10%Z, Some s => match get_z 1 s with Some z => (z =? Z.of_N id)%Z | None => false end | _, _ => false end = false); [|rewrite Z in X; discriminate].
    clear X. destruct t as [|p|p]; try reflexivity. repeat (destruct p as [p|p|]; try reflexivity). now elim N.
Qed.
Lemma ack_own id o : ack_of id o = true -> own id o = true.
Proof. destruct o as [| | | |[|x l]| | | | |]; try discriminate. auto. Qed.
Lemma says_ack cfg id o mc : says cfg o mc -> own id o = true -> ack_by id mc = ack_of id o.
Proof. intros (now & _ & D) O. destruct o; try discriminate O; eapply denotes_ack; exact D. Qed.
Lemma asked_acks id : forall more, (forall o, In o more -> (exists n, o = OFlow id n) \/ exists mid rid, o = OAck [mk_ack id mid rid]) ->
  exists rids, length rids = length (acked more) /\ filter (ack_of id) more = map (fun p => OAck [mk_ack id (fst p) (snd p)]) (combine (acked more) rids).
Proof.
  induction more as [|o l IH]; intros Sh; [exists []; auto|]. destruct IH as (rids & L & Ef); [intros x X; apply Sh; now right|].
  destruct (Sh o (or_introl eq_refl)) as [[n ->]|(mid & rid & ->)].
  - exists rids. cbn [filter ack_of]. change (acked (OFlow id n :: l)) with (acked l). auto.
  - exists (rid :: rids). change (acked (OAck [mk_ack id mid rid] :: l)) with (mid :: acked l). cbn [filter ack_of ak_cid length combine map fst snd]. rewrite N.eqb_refl, Ef, L. auto.
Qed.
Lemma combine_firstn {A B} : forall (a : list A) (b : list B) k, firstn k (combine a b) = combine (firstn k a) (firstn k b).
Proof. induction a as [|x a IH]; intros [|y b] [|k]; cbn [firstn combine]; try reflexivity. now rewrite IH. Qed.
Lemma fst_combine {A B} : forall (a : list A) (b : list B), length b = length a -> map fst (combine a b) = a.
Proof. induction a as [|x a IH]; intros [|y b] L; cbn in *; try discriminate; auto. now rewrite IH by lia. Qed.
Lemma subseq_of_map {A B} (f : A -> B) l : forall xs, subseq xs (map f l) -> exists ys, xs = map f ys /\ subseq ys l.
Proof.
  induction l as [|a l IH]; intros xs S; cbn [map] in S.
  - inversion S; subst. exists []. split; [reflexivity|constructor].
  - inversion S as [|x a' b' S'|x a' b' S']; subst; [exists []; split; [reflexivity|constructor]| |].
    + destruct (IH _ S') as (ys & -> & Y). exists (a :: ys). split; [reflexivity|now constructor].
    + destruct (IH _ S') as (ys & -> & Y). exists ys. split; [reflexivity|now constructor].
Qed.
Lemma says_alone cfg id (ps : list (message * N)) : forall ys, Forall2 (says cfg) (map (fun p => OAck [mk_ack id (fst p) (snd p)]) ps) ys -> Forall2 (acks_alone id) (map fst ps) ys.
Proof.
  induction ps as [|p ps IH]; intros ys F; inversion F as [|? y ? ys' (now & _ & D) F']; subst; cbn [map]; constructor; [|apply IH; exact F'].
  cbn [denotes] in D. destruct D as (_ & x & ak & Hk & Cx & F1 & _ & F2 & F3). cbn in Hk. injection Hk as <-. cbn in F1, F2, F3. exists x. auto.
Qed.

(** A consumer has been built on client [c]; since then the application has called
    next_message, next_batch, ack and ack_all in any way, so that the client has made
    flow requests and acknowledgements. Whatever the transports do and whatever part of
    the bytes the brokers have read: the acknowledgements under the consumer's id among
    them are, on the connection of its broker, acknowledgements the application has
    asked for, each alone, in the order of the calls and each at most once; exactly the
    first [k] of them if that transport, once it has failed, takes no more bytes. No
    other connection carries any. *)
Theorem C83_only_when_asked : forall E io h s c id name topic sub permits rs made more got, let a := broker_of (e_cfg E) rs in
  reach E h s -> newids h <= 2 ^ 64 -> In (OReg c id) (s_log s) ->
  exec (consumer_connect id name topic sub permits Client.fresh) rs = (made, Some (Ok tt)) -> requests c (s_log s) = made ++ more ->
  (forall o, In o more -> (exists n, o = OFlow id n) \/ (exists mid rid, o = OAck [mk_ack id mid rid])) ->
  (forall b, clock_fits b h) -> (forall b n o, In (n, o) (queued b (s_log s)) -> sendable_request o) -> brokers_read E io h got ->
  (exists mids, subseq mids (acked more) /\ Forall2 (acks_alone id) mids (filter (ack_by id) (got a))) /\
  (fails_for_good (attempts E a (io a) h) -> exists k, Forall2 (acks_alone id) (firstn k (acked more)) (filter (ack_by id) (got a))) /\
  forall b, b <> a -> filter (ack_by id) (got b) = [].
Proof.
  intros E io h s c id name topic sub permits rs made more got a H Hn Rg X Rq Mo Ck Q Br.
  assert (Nm : forall cr, ~ In (OConnect cr) more) by (intros cr Y; destruct (Mo _ Y) as [[n Z]|(mid & rid & Z)]; discriminate).
  assert (Bu : built id rs made) by (left; eauto).
  destruct (C75_broker_reads_client E io h s c id rs made more got H Hn Rg Bu Rq Nm Ck Q Br) as ((xs & S & F) & G & O). fold a in F, G, O.
  assert (Em : filter (ack_of id) (requests c (s_log s)) = filter (ack_of id) more).
  { rewrite Rq, filter_app. replace (filter (ack_of id) made) with (@nil outbound); [reflexivity|]. apply built_shape in X. subst made. destruct (asks_proxy rs); reflexivity. }
  assert (Fi : forall ys, subseq ys (filter (own id) (requests c (s_log s))) -> Forall2 (says (e_cfg E)) ys (filter (from_client id) (got a)) -> Forall2 (says (e_cfg E)) (filter (ack_of id) ys) (filter (ack_by id) (got a))).
  { intros ys Sy Fy. rewrite <- (filter_of_filter (ack_by id) (from_client id) (got a) (ack_from id)).
    assert (Ow : forall o, In o ys -> own id o = true) by (intros o Y; apply (subseq_in _ _ _ Sy) in Y; now apply filter_In in Y).
    clear - Fy Ow. induction Fy as [|o mc l m Z F IH]; [constructor|]. cbn [filter]. rewrite (says_ack _ _ _ _ Z (Ow o (or_introl eq_refl))).
    assert (R : Forall2 (says (e_cfg E)) (filter (ack_of id) l) (filter (ack_by id) m)) by (apply IH; intros; apply Ow; now right).
    destruct (ack_of id o); [now constructor|exact R]. }
  destruct (asked_acks id more Mo) as (rids & Lr & Ea).
  split; [|split].
  - pose proof (subseq_filter_both (ack_of id) _ _ S) as S'. rewrite (filter_of_filter _ _ _ (ack_own id)), Em, Ea in S'.
    destruct (subseq_of_map _ _ _ S') as (ps & Ep & Sp). exists (map fst ps). split.
    + rewrite <- (fst_combine (acked more) rids Lr). now apply subseq_map.
    + apply (says_alone (e_cfg E)). rewrite <- Ep. now apply Fi.
  - intros Ff. destruct (G Ff) as [k Gk]. pose proof (Fi _ (firstn_subseq k _) Gk) as Z.
    destruct (filter_firstn (ack_of id) (filter (own id) (requests c (s_log s))) k) as [j Ej]. rewrite Ej, (filter_of_filter _ _ _ (ack_own id)), Em, Ea, firstn_map in Z.
    exists j. apply says_alone in Z. rewrite combine_firstn, fst_combine in Z by (rewrite !firstn_length; lia). exact Z.
  - intros b Hb. rewrite <- (filter_of_filter (ack_by id) (from_client id) (got b) (ack_from id)), (O b Hb). reflexivity.
Qed.
Print Assumptions C83_only_when_asked.

(** So a message the application has not asked to be acknowledged is acknowledged on no
    connection, and an application that acknowledges nothing has nothing acknowledged:
    returning a message does not, nor does next_batch, dropping the consumer, or an
    entry that cannot be decoded. *)
Theorem C83_nothing_unasked : forall E io h s c id name topic sub permits rs made more got b mc ack mid,
  reach E h s -> newids h <= 2 ^ 64 -> In (OReg c id) (s_log s) ->
  exec (consumer_connect id name topic sub permits Client.fresh) rs = (made, Some (Ok tt)) -> requests c (s_log s) = made ++ more ->
  (forall o, In o more -> (exists n, o = OFlow id n) \/ (exists mid rid, o = OAck [mk_ack id mid rid])) ->
  (forall b, clock_fits b h) -> (forall b n o, In (n, o) (queued b (s_log s)) -> sendable_request o) -> brokers_read E io h got ->
  In mc (got b) -> carries mc 10 10 ack -> int_field 1 ack id -> In mid (get_ms 3 ack) -> In mid (acked more).
Proof.
  intros E io h s c id name topic sub permits rs made more got b mc ack mid H Hn Rg X Rq Mo Ck Q Br Hm Ca Ii Mi.
  destruct (C83_only_when_asked E io h s c id name topic sub permits rs made more got H Hn Rg X Rq Mo Ck Q Br) as ((mids & S & F) & _ & O).
  assert (Ab : ack_by id mc = true) by (destruct Ca as (C1 & C2 & _); unfold ack_by; rewrite C1, C2; unfold int_field in Ii; rewrite Ii; apply Z.eqb_refl).
  assert (Hf : In mc (filter (ack_by id) (got b))) by (apply filter_In; auto).
  destruct (baddr_dec b (broker_of (e_cfg E) rs)) as [->|N]; [|rewrite (O b N) in Hf; destruct Hf].
  assert (Z : exists m, In m mids /\ acks_alone id m mc).
  { clear - F Hf. induction F as [|m y l ys R F IH]; [destruct Hf|]. destruct Hf as [->|Y]; [exists m; split; [now left|exact R]|]. destruct (IH Y) as (m' & I & R'). exists m'. split; [now right|exact R']. }
  destruct Z as (m & Im & ack' & Ca' & _ & _ & Ms). destruct Ca as (_ & C2 & _), Ca' as (_ & C2' & _). rewrite C2 in C2'. injection C2' as <-. rewrite Ms in Mi. destruct Mi as [<-|[]].
  eapply subseq_in; [exact S|exact Im].
Qed.
Print Assumptions C83_nothing_unasked.

(** Both messages of a batch have been returned; the application has asked for both
    acknowledgements and the broker has read them (the run of C78). *)
Example C83_meets : exists s, let a := broker_of (e_cfg xE) x_rs in let got := read_everything xE z_io l_events in
  reach xE l_events s /\ newids l_events <= 2 ^ 64 /\ In (OReg 0%nat 0) (s_log s) /\
  exec (consumer_connect 0 (str "n") (str "t") (str "s") 250 Client.fresh) x_rs = (x_made, Some (Ok tt)) /\ requests 0%nat (s_log s) = x_made ++ [l_a0; l_a1] /\
  (forall o, In o [l_a0; l_a1] -> (exists n, o = OFlow 0 n) \/ (exists mid rid, o = OAck [mk_ack 0 mid rid])) /\
  (forall b, clock_fits b l_events) /\ (forall b n o, In (n, o) (SpecEngine.queued b (s_log s)) -> sendable_request o) /\ brokers_read xE z_io l_events got /\
  length (filter (ack_by 0) (got a)) = 2%nat.
Proof.
  destruct C78_loop_acknowledges_meets as (s & cs & _ & R & N & Rg & X & Rq & _ & _ & _ & _ & _ & _ & Ck & Q & Ra & _ & _ & _ & L).
  exists s. cbv zeta. repeat (split; [assumption|]). split; [intros o [<-|[<-|[]]]; right; eexists _, _; reflexivity|]. split; [exact Ck|]. split; [exact Q|]. split; [|exact L].
  intros b. exact (proj1 (Ra l_events [] (eq_sym (app_nil_r _)) b)).
Qed.
