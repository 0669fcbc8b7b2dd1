(** C70: the sends of a producer reach its broker in order, each once, and no other. *)
From Verif Require Import Bytes Errors Wire Proto Codec SpecFrame SpecCodec Address Message SpecMessage Client SpecKeys SpecClient Engine SpecEngine SpecEngine2 Sink SpecStack SinkFacts EngineFacts EngineInv EngineReq EngineEv EngineConn EngineLog EngineView EngineQueue EngineRoute EngineGate EngineNet EngineLife EngineEx CodecFacts MessageFacts PropCodec PropMessage PropClient PropEngine PropEngine2 PropEngine6 PropStack PropReceipt PropRoute PropDeliver.
Open Scope N_scope.

(** A send command of producer [id]. *)
Definition sends_of (id : N) (mc : msg_cmd) : bool :=
  match get_z 1 (mc_cmd mc), get_m 6 (mc_cmd mc) with
  | Some ty, Some s => (ty =? 6)%Z && match get_z 1 s with Some z => (z =? Z.of_N id)%Z | None => false end
  | _, _ => false
  end.
(** The producer id in a send request. *)
Definition send_pid (p : send_req) : N := match p with SSingle _ pid _ _ => pid | SBatch _ pid _ _ => pid end.
Definition send_from (id : N) (o : outbound) : bool := match o with OSend p => send_pid p =? id | _ => false end.

Lemma denotes_send id now o mc : denotes now o mc -> sends_of id mc = send_from id o.
Proof.
  intros D.
  assert (Z : forall ty k s0, carries mc ty k s0 -> ty <> 6%Z -> sends_of id mc = false).
  { intros ty k s0 (X & _) Hne. unfold sends_of. rewrite X. destruct (Z.eqb_spec ty 6); [contradiction|]. now destruct (get_m 6 (mc_cmd mc)). }
  destruct o as [| | |p| | | | | |]; cbn [denotes send_from] in *;
    try (decompose [and ex] D; match goal with X : carries mc _ _ _ |- _ => apply (Z _ _ _ X); discriminate end).
  destruct D as (s0 & p0 & (D1 & D2 & _) & _ & D3). unfold sends_of. rewrite D1, D2. cbn [Z.eqb Pos.eqb andb].
  destruct p; destruct D3 as (D3 & _); unfold int_field in D3; rewrite D3; cbn [send_pid]; (destruct (N.eqb_spec pid id) as [->|Hne]; [apply Z.eqb_refl|apply Z.eqb_neq; intros X; apply N2Z.inj in X; congruence]).
Qed.
Lemma Forall2_filter {A B} (R : A -> B -> Prop) f g l m : (forall x y, R x y -> f x = g y) -> Forall2 R l m -> Forall2 R (filter f l) (filter g m).
Proof. intros S. induction 1 as [|x y l m X F IH]; [constructor|]. cbn. rewrite (S x y X). destruct (g y); auto. Qed.
Lemma Forall2_initial {A B} (R : A -> B -> Prop) l m' : forall m, Forall2 R l m -> initial m' m -> exists l', initial l' l /\ Forall2 R l' m'.
Proof.
  revert l. induction m' as [|y m' IH]; intros l m F [r X]; [exists []; split; [now exists l|constructor]|].
  subst m. inversion F as [|x ? l' ? X1 X2]; subst. destruct (IH l' (m' ++ r) X2) as (l2 & [q ->] & F2); [now exists r|]. exists (x :: l2). split; [exists q; reflexivity|now constructor].
Qed.

(** The sends of producer [id] that connection [b] took for writing are sends of
    client [c], if only [c] uses that id. *)
Lemma sends_filter E h s c id b : reach E h s ->
  (forall c' n p, In (OIssue c' n (OSend p)) (s_log s) -> (send_pid p = id <-> c' = c)) ->
  map snd (filter (fun x => send_from id (snd x)) (written b (s_log s))) = sends_written c b (s_log s).
Proof.
  intros H U. unfold sends_written.
  assert (G : forall l, incl l (s_log s) -> map snd (filter (fun x => send_from id (snd x)) (written b l)) =
    flat_map (fun x => match x with OWrite b0 (Some n) (OSend p) _ => if baddr_eqb b0 b && in_nat n (issued c (s_log s)) then [OSend p] else [] | _ => [] end) l).
  { induction l as [|x l IH]; intros I; [reflexivity|]. unfold written in *. cbn [flat_map]. rewrite filter_app, map_app, IH by (intros z Z; apply I; now right). f_equal.
    assert (Ix : In x (s_log s)) by (apply I; now left). destruct x as [| | | | | | |b0 src o ok| | | | | | | | | | |]; try reflexivity.
    destruct (baddr_eqb b0 b) eqn:B; [|destruct src, o; reflexivity]. cbn [filter snd].
    destruct o as [| | |p| | | | | |]; cbn [send_from]; try (destruct src; reflexivity).
    destruct src as [n|]; [|apply (C40_engine_writes_pongs E h s) in Ix; [discriminate|exact H]].
    destruct (C39_commands_unchanged E h s b0 n _ ok H Ix) as (q & [c' R] & X).
    assert (R' : In (OIssue c' n (OSend p)) (s_log s)) by (destruct q; try (rewrite X; exact R); destruct X as (d & m & X); discriminate).
    specialize (U c' n p R'). cbn [andb]. destruct (N.eqb_spec (send_pid p) id) as [Y|Y].
    - assert (in_nat n (issued c (s_log s)) = true) as -> by (apply is_in_spec, issued_in; destruct U as [U _]; rewrite (U Y) in R'; eauto). reflexivity.
    - destruct (in_nat n (issued c (s_log s))) eqn:M; [|reflexivity]. exfalso. apply is_in_spec, issued_in in M as [o M].
      destruct (r_uniq s (v_r E s (reach_all E h s H)) _ _ _ _ _ M R') as [-> _]. apply Y, U. reflexivity. }
  apply G. intros x X. exact X.
Qed.
Lemma sent_as_pid id name cs : forall i p, In (OSend p) (sent_as id name i cs) -> send_pid p = id.
Proof.
  induction cs as [|c cs IH]; intros i p; [intros []|]. destruct c; cbn [sent_as]; try apply IH.
  - intros [[= <-]|X]; [reflexivity|eauto].
  - intros [[= <-]|X]; [reflexivity|eauto].
Qed.
Lemma queued_pid id name hc cl p : cl_run id name client_init hc = Some cl -> N.of_nat (length (filter is_send (calls hc))) <= 2 ^ 64 ->
  In (OSend p) (cl_queue cl) -> send_pid p = id.
Proof.
  intros R B X. destruct (built_as id name hc cl R B) as [F _]. apply (sent_as_pid id name (calls hc) 0). rewrite <- F. apply filter_In. split; [|reflexivity].
  destruct (cl_run_inv _ _ _ _ _ R cl_init_inv) as (_ & _ & P). apply (Permutation.Permutation_in _ (Permutation.Permutation_sym P)). apply in_app_iff. now left.
Qed.
Lemma request_in c l n o : In (OIssue c n o) l -> In o (requests c l).
Proof. intros X. unfold requests. apply in_flat_map. eexists. split; [exact X|]. cbn. rewrite Nat.eqb_refl. now left. Qed.
Lemma producer_shape id name topic rs made : exec (producer_connect id name topic Client.fresh) rs = (made, Some (Ok tt)) ->
  made = match asks_proxy rs with
         | None => [plain_connect; OLookup 0 topic; OProducer topic id 1 (Some name)]
         | Some t => [plain_connect; OLookup 0 topic; proxy_connect t; OLookup 1 topic; OProducer topic id 2 (Some name)]
         end.
Proof.
  intros X. rewrite C20_producer_handshake in X. destruct (asks_proxy rs) as [t|].
  - apply walk_all in X as [-> _]; [reflexivity|]. intros o v Y. apply in_app_iff in Y as [Y|Y]; [eapply proxied_fine; eauto|eapply producer_fine; eauto].
  - apply walk_all in X as [-> _]; [reflexivity|]. intros o v Y. apply in_app_iff in Y as [Y|Y]; [eapply direct_fine; eauto|eapply producer_fine; eauto].
Qed.
(** All sends of a client that was built and has not connected since go to its broker. *)
Lemma sends_go E h s c id name topic rs made more : reach E h s -> newids h <= 2 ^ 64 ->
  exec (producer_connect id name topic Client.fresh) rs = (made, Some (Ok tt)) -> requests c (s_log s) = made ++ more -> (forall cr, ~ In (OConnect cr) more) ->
  forall n b p, In (OForward n b (OSend p)) (s_log s) -> In n (issued c (s_log s)) -> b = broker_of (e_cfg E) rs.
Proof.
  intros H Hn X Rq Nm n b p F I. apply producer_shape in X. apply In_nth_error in I as [k K]. pose proof (C68_route E h s c k n b _ H Hn K F) as G.
  assert (Rk : nth_error (requests c (s_log s)) k = Some (OSend p)).
  { pose proof (issue_nth c (s_log s) k) as Y. rewrite K in Y. destruct (nth_error (requests c (s_log s)) k) as [o|]; [|contradiction]. f_equal.
    apply in_split in F as (l1 & l2 & El). destruct (reach_entries E h s H _ _ _ El) as (_ & _ & _ & _ & q & [c' Q] & Fq).
    assert (Q' : In (OIssue c' n q) (s_log s)) by (rewrite El; apply in_app_iff; auto). destruct (r_uniq s (v_r E s (reach_all E h s H)) _ _ _ _ _ Y Q') as [_ ->].
    unfold formed in Fq. destruct q; try congruence. destruct Fq as (d & m & Fq & _). discriminate. }
  rewrite (goes_nth _ _ _ _ _ Rk) in G. injection G as <-. rewrite Rq in Rk |- *.
  assert (Lk : (length made <= k)%nat).
  { destruct (Nat.lt_ge_cases k (length made)) as [L|L]; [|exact L]. exfalso. rewrite nth_error_app1 in Rk by exact L. subst made.
    destruct (asks_proxy rs); do 5 (destruct k as [|k]; [discriminate|]); try discriminate; destruct k; discriminate. }
  rewrite firstn_app, firstn_all2 by exact Lk. rewrite after_app_made. 
  rewrite (after_plain _ (firstn _ more)).
  - subst made. unfold broker_of, broker_address. destruct (asks_proxy rs); reflexivity.
  - intros cr Y. elim (Nm cr). rewrite <- (firstn_skipn (k - length made) more). apply in_app_iff. now left.
Qed.
Lemma flat_map_nil {A B} (f : A -> list B) l : (forall x, In x l -> f x = []) -> flat_map f l = [].
Proof. induction l as [|x l IH]; intros F; [reflexivity|]. cbn. rewrite F by now left. apply IH. intros y Y. apply F. now right. Qed.
Lemma subseq_trans {A} (a b c : list A) : subseq a b -> subseq b c -> subseq a c.
Proof.
  intros H G. revert a H. induction G as [l|x a' b' G IH|x a' b' G IH]; intros a H.
  - inversion H; subst; constructor.
  - inversion H; subst; constructor; auto.
  - constructor. auto.
Qed.
Lemma initial_subseq {A} (a b : list A) : initial a b -> subseq a b.
Proof. intros [r ->]. induction a; cbn; constructor; auto. Qed.
Lemma subseq_map {A B} (f : A -> B) a b : subseq a b -> subseq (map f a) (map f b).
Proof. induction 1; cbn; constructor; auto. Qed.
Lemma subseq_keep {A} (f : A -> bool) a b : subseq a b -> subseq (filter f a) (filter f b).
Proof. induction 1 as [|x a b H IH|x a b H IH]; cbn [filter]; [constructor| |]; destruct (f x); try constructor; auto. Qed.
Lemma filter_subseq {A} (f : A -> bool) l : subseq (filter f l) l.
Proof. induction l as [|x l IH]; [constructor|]. cbn [filter]. destruct (f x); constructor; auto. Qed.
(** A producer was built on client [c], with some replies [rs], and its client has made
    no further connect; no other client uses its id. Its calls of send are made in
    turn. Whatever the transports do, and whatever part of the bytes on the wires the
    brokers have read, the send commands with the producer's id among them are, on the
    connection of its broker, calls of send, in order, each at most once, numbered by
    their place among all calls, unchanged; if that transport, once it has failed,
    takes no more bytes (in particular if it never fails), exactly the first [k] calls
    of send. On every other connection there are none. *)
Theorem C70_broker_reads_sends : forall E io h s c id name topic rs made more hc cl got, let a := broker_of (e_cfg E) rs in
  reach E h s -> newids h <= 2 ^ 64 ->
  cl_run id name client_init hc = Some cl -> sends_in_turn None hc -> N.of_nat (length (filter is_send (calls hc))) <= 2 ^ 64 ->
  requests c (s_log s) = cl_queue cl ->
  exec (producer_connect id name topic Client.fresh) rs = (made, Some (Ok tt)) -> cl_queue cl = made ++ more -> (forall cr, ~ In (OConnect cr) more) ->
  (forall c' n p, In (OIssue c' n (OSend p)) (s_log s) -> send_pid p = id -> c' = c) ->
  (forall b, clock_fits b h) -> (forall b n o, In (n, o) (queued b (s_log s)) -> sendable_request o) -> brokers_read E io h got ->
  (exists xs, subseq xs (sent_as id name 0 (calls hc)) /\ Forall2 (says (e_cfg E)) xs (filter (sends_of id) (got a))) /\
  (fails_for_good (attempts E a (io a) h) ->
    exists k, Forall2 (says (e_cfg E)) (firstn k (sent_as id name 0 (calls hc))) (filter (sends_of id) (got a))) /\
  forall b, b <> a -> filter (sends_of id) (got b) = [].
Proof.
  intros E io h s c id name topic rs made more hc cl got a H Hn R St B Rq X Qm Nm U Ws Q G.
  assert (U' : forall c' n p, In (OIssue c' n (OSend p)) (s_log s) -> (send_pid p = id <-> c' = c)).
  { intros c' n p I. split; [eauto|]. intros ->. apply (queued_pid id name hc cl p R B). rewrite <- Rq. eapply request_in; eauto. }
  assert (Go : forall n b p, In (OForward n b (OSend p)) (s_log s) -> In n (issued c (s_log s)) -> b = a) by (eapply sends_go; eauto; now rewrite Rq).
  assert (Gen : forall b l mcs, initial (got b) mcs -> Forall2 request_of l mcs ->
    exists xs, initial xs (map snd (filter (fun x => send_from id (snd x)) l)) /\ Forall2 (says (e_cfg E)) xs (filter (sends_of id) (got b))).
  { intros b l mcs I F.
    pose proof (Forall2_filter request_of (fun x => send_from id (snd x)) (sends_of id) _ _ (fun x y Y => match Y with ex_intro _ now (conj _ D) => eq_sym (denotes_send id now _ _ D) end) F) as F'.
    destruct (Forall2_initial _ _ (filter (sends_of id) (got b)) _ F') as (xs & Ix & Fx); [now apply filter_initial|].
    exists (map snd xs). split; [destruct Ix as [r ->]; rewrite map_app; eexists; reflexivity|].
    assert (Sx : forall x, In x xs -> send_from id (snd x) = true) by (intros x Y; destruct Ix as [r Ix]; assert (Z : In x (filter (fun x => send_from id (snd x)) l)) by (rewrite Ix; apply in_app_iff; auto); now apply filter_In in Z).
    clear - Fx Sx. induction Fx as [|x y xs ys (now & Nw & D) F IH]; cbn; constructor; [|apply IH; intros z Z; apply Sx; now right].
    exists now. split; [exact Nw|]. specialize (Sx x (or_introl eq_refl)). destruct (snd x); try discriminate. exact D. }
  assert (Per : forall b, exists xs, subseq xs (sends_written c b (s_log s)) /\ Forall2 (says (e_cfg E)) xs (filter (sends_of id) (got b))).
  { intros b. destruct (got_taken E io h s got b H (Ws b) (Q b) G) as (mcs & I & F). destruct (Gen b _ _ I F) as (xs & Ix & Fx). exists xs. split; [|exact Fx].
    rewrite <- (sends_filter E h s c id b H U'). eapply subseq_trans; [apply initial_subseq; exact Ix|]. apply subseq_map, subseq_keep.
    destruct (attempts_frames E b (io b) h s H (Ws b) (Q b)) as [<- _]. apply subseq_map, filter_subseq. }
  pose proof (C60_producer_stack E h s c a id name hc cl R St B H Rq Go) as Ic. split; [|split].
  - destruct (Per a) as (xs & Ix & Fx). exists xs. split; [|exact Fx]. eapply subseq_trans; [exact Ix|]. now apply initial_subseq.
  - intros Fg. destruct (got_written E io h s got a H (Ws a) Fg (Q a) G) as (mcs & I & F). destruct (Gen a _ _ I F) as (xs & Ix & Fx). rewrite (sends_filter E h s c id a H U') in Ix.
    destruct (initial_trans _ _ _ Ix Ic) as [r Sr]. exists (length xs). rewrite Sr, firstn_app, firstn_all, Nat.sub_diag, app_nil_r. exact Fx.
  - intros b Hb. destruct (Per b) as (xs & Ix & Fx). assert (xs = []) as ->; [|now inversion Fx].
    assert (N : sends_written c b (s_log s) = []).
    { unfold sends_written. apply flat_map_nil. intros x Ix'. destruct x as [| | | | | | |b0 src o ok| | | | | | | | | | |]; try reflexivity. destruct src as [n|]; [|reflexivity]. destruct o; try reflexivity.
      destruct (baddr_eqb b0 b) eqn:Bb; [|reflexivity]. apply baddr_eqb_spec in Bb. subst b0. destruct (in_nat n (issued c (s_log s))) eqn:M; [|reflexivity]. exfalso. apply Hb.
      apply is_in_spec in M. apply in_split in Ix' as (l1 & l2 & El). pose proof (reach_entries E h s H _ _ _ El) as Y. cbn in Y. eapply Go; [|exact M]. rewrite El. apply in_app_iff. left. exact Y. }
    rewrite N in Ix. now inversion Ix.
Qed.
Print Assumptions C70_broker_reads_sends.

(** A producer built directly; of three sends one has been written, one is queued for
    the connection, one has not been taken yet; another client connects as well. *)
Definition v_hc : list cl_ev :=
  [Build 0 CConnect; Enqueue 0; Build 0 (CLookup (str "t")); Enqueue 0; Build 0 (CProducer (str "t")); Enqueue 0;
   Build 0 (CSend (str "x")); Enqueue 0; Build 0 (CSendBatch [str "y"; str "z"]); Enqueue 0; Build 1 (CSend (str "w")); Enqueue 1]%nat.
Definition v_s1 : outbound := OSend (SSingle (str "p") 0 0 (str "x")).
Definition v_s2 : outbound := OSend (SBatch (str "p") 0 1 [str "y"; str "z"]).
Definition v_s3 : outbound := OSend (SSingle (str "p") 0 2 (str "w")).
Definition v_events : list event :=
  x_reg2 ++ [EvIssue 0%nat plain_connect; EvClient 0%nat; EvWrite xA 0 true; EvNet xA f_connected; EvAnswered;
   EvIssue 1%nat plain_connect; EvClient 1%nat; EvWrite xA 0 true; EvNet xA f_connected; EvAnswered;
   EvIssue 0%nat (OLookup 0 (str "t")); EvClient 0%nat; EvWrite xA 0 true; EvNet xA (f_lookup 0 (str "u") 0); EvConn xA;
   EvIssue 0%nat (OProducer (str "t") 0 1 (Some (str "p"))); EvClient 0%nat; EvWrite xA 0 true; EvNet xA (f_producer 1); EvConn xA;
   EvIssue 0%nat v_s1; EvIssue 0%nat v_s2; EvClient 0%nat; EvWrite xA 7 true; EvClient 0%nat; EvIssue 0%nat v_s3].
Definition v_rs : list reply := [Resolved InConnected; Resolved (x_lr 0 false); Resolved (InProducerSuccess 1 (str "prod"))].
Definition v_made : list outbound := [plain_connect; OLookup 0 (str "t"); OProducer (str "t") 0 1 (Some (str "p"))].
Definition v_log : list obs := Eval vm_compute in log_of v_events.
Lemma v_log_eq : log_of v_events = v_log. Proof. vm_compute. reflexivity. Qed.
Lemma v_writes b : writes_succeed xE b (z_io b) v_events.
Proof.
  split; [|intros now ok X; unfold v_events, x_reg2 in X; cbn [app In] in X; PropReceipt.walk X; injection X as _ <- _; reflexivity].
  destruct (baddr_dec b xA) as [->|N]; [apply all_ok_check; vm_compute; reflexivity|].
  intros x X. exfalso. rewrite no_offers in X; [destruct X|]. clear X. intros now ok Y. unfold v_events, x_reg2 in Y; cbn [app In] in Y; PropReceipt.walk Y; injection Y; intros _ _ Y'; apply N; symmetry; exact Y'.
Qed.
Lemma v_sendable a m o : In (m, o) (SpecEngine.queued a v_log) -> sendable_request o.
Proof.
  intros X. unfold SpecEngine.queued in X. apply in_flat_map in X as (x & Hx & Hy).
  assert (S : Forall (fun x => match x with OForward _ _ o => sendable_request o | _ => True end) v_log).
  { unfold v_log. repeat (apply Forall_cons; [solve [exact I|x_fit]|]). apply Forall_nil. }
  rewrite Forall_forall in S. specialize (S x Hx).
  destruct x as [| | | | |n b o1| | | | | | | | | | | | |]; try contradiction.
  - destruct (baddr_eqb b a); [|contradiction]. destruct Hy as [[= _ <-]|[]]. exact S.
  - exfalso. unfold v_log in Hx. cbn [In] in Hx. PropReceipt.walk Hx.
Qed.
Example C70_meets : exists s cl, let got := read_everything xE z_io v_events in
  broker_of (e_cfg xE) v_rs = xA /\ reach xE v_events s /\ newids v_events <= 2 ^ 64 /\
  cl_run 0 (str "p") client_init v_hc = Some cl /\ sends_in_turn None v_hc /\ N.of_nat (length (filter is_send (calls v_hc))) <= 2 ^ 64 /\
  requests 0%nat (s_log s) = cl_queue cl /\
  exec (producer_connect 0 (str "p") (str "t") Client.fresh) v_rs = (v_made, Some (Ok tt)) /\ cl_queue cl = v_made ++ [v_s1; v_s2; v_s3] /\
  (forall c' n p, In (OIssue c' n (OSend p)) (s_log s) -> send_pid p = 0 -> c' = 0%nat) /\
  (forall b, clock_fits b v_events) /\ (forall b n o, In (n, o) (SpecEngine.queued b (s_log s)) -> sendable_request o) /\ brokers_read xE z_io v_events got /\ fails_for_good (attempts xE xA (z_io xA) v_events) /\
  length (filter (sends_of 0) (got xA)) = 1%nat.
Proof.
  destruct (log_reach v_events) as (s & R & L); [rewrite v_log_eq; discriminate|]. rewrite v_log_eq in L.
  destruct (cl_run 0 (str "p") client_init v_hc) as [cl|] eqn:RC; [|vm_compute in RC; discriminate].
  assert (Qc : cl_queue cl = v_made ++ [v_s1; v_s2; v_s3]) by (vm_compute in RC; injection RC as <-; vm_compute; reflexivity).
  assert (Sd : forall b n o, In (n, o) (SpecEngine.queued b (s_log s)) -> sendable_request o) by (rewrite L; apply v_sendable).
  exists s, cl. cbv zeta. split; [reflexivity|]. split; [exact R|]. split; [vm_compute; discriminate|]. split; [reflexivity|]. split; [vm_compute; auto|].
  split; [vm_compute; discriminate|]. split; [rewrite L, Qc; vm_compute; reflexivity|]. split; [vm_compute; reflexivity|]. split; [exact Qc|].
  split; [intros c' n p X _; rewrite L in X; unfold v_log in X; cbn [In] in X; PropReceipt.walk X; injection X as <- _ _; reflexivity|].
  split; [intros b; exact (proj2 (v_writes b))|]. split; [exact Sd|]. split; [apply (read_all xE z_io v_events s R v_writes Sd)|]. split; [exact (ok_for_good _ (proj1 (v_writes xA)))|]. vm_compute. reflexivity.
Qed.
