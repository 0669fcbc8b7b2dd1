(** C66: a send that succeeds was read by the broker. *)
From Verif Require Import Bytes Errors Wire Proto Codec SpecFrame SpecCodec Address Message SpecMessage Client SpecKeys SpecClient Producer Engine SpecEngine SpecEngine2 Sink SpecStack SinkFacts EngineFacts EngineInv EngineReq EngineEv EngineConn EngineLog EngineQueue EngineNet EngineEx SpecTurn TurnFacts CodecFacts MessageFacts PropCodec PropMessage PropClient PropProducer PropEngine PropEngine2 PropEngine6 PropStack.
Open Scope N_scope.

(** What the brokers have read: on each connection [a], whose transport behaves as
    [io a] says, an initial part of the bytes that got onto the wire, cut by the network in any way, decoded into the commands [got]. *)
Definition brokers_read (E : env) (io : baddr -> nat -> io_plan) (h : list event) (got : baddr -> list msg_cmd) : Prop :=
  forall a, exists reads, initial (concat reads) (wire E a (io a) h) /\ stream_items reads false = map IFrame (got a).
(** A send command with sequence number [seq]. *)
Definition send_command (mc : msg_cmd) (seq : N) : Prop := exists sub, carries mc 6 6 sub /\ int_field 2 sub seq.
(** Every receipt a broker sends on a connection is for a send it has read there. *)
Definition receipts_for_read (h : list event) (got : baddr -> list msg_cmd) : Prop :=
  forall a mc pid seq mid, In (EvNet a (IFrame mc)) h -> to_inbound mc = Ok (InReceipt pid seq mid) -> exists mc', In mc' (got a) /\ send_command mc' seq.
(** No two sends have the same sequence number. *)
Definition distinct_sends (l : list obs) : Prop :=
  forall n m p q, requested l n (OSend p) -> requested l m (OSend q) -> kind_of (OSend p) = kind_of (OSend q) -> n = m.

Lemma map_initial {A B} (f : A -> B) a b : (forall x y, f x = f y -> x = y) -> initial (map f a) (map f b) -> initial a b.
Proof.
  intros F. revert b. induction a as [|x a IH]; intros b [r H]; [eexists; reflexivity|]. destruct b as [|y b]; [discriminate|].
  cbn in H. injection H as H1 H2. apply F in H1. subst y. destruct (IH b) as [r' ->]; [now exists r|]. exists r'. reflexivity.
Qed.
Lemma got_taken E io h s got a : reach E h s -> clock_fits a h -> (forall n o, In (n, o) (queued a (s_log s)) -> sendable_request o) ->
  brokers_read E io h got -> exists mcs, initial (got a) mcs /\ Forall2 request_of (taken_up (attempts E a (io a) h)) mcs.
Proof.
  intros H Ck Q G. destruct (G a) as (reads & I & Rd). destruct (attempts_frames E a (io a) h s H Ck Q) as (W & mcs & F1 & F2 & F3).
  destruct (Forall2_pick _ _ at_taken _ _ F2 _ F3) as (mcs' & cs & P1 & P2 & P3 & P4). specialize (P4 at_cmd W). subst cs.
  exists mcs'. split; [|exact P2].
  destruct (some_frames (e_oc E) mcs' (map at_frame (filter at_taken (attempts E a (io a) h))) reads) as (g & G1 & G2).
  - rewrite Forall_forall in *. auto.
  - now apply (Forall2_map_r (fun mc b => encode (e_oc E) mc = Ok b) at_frame).
  - destruct I as [r1 I], (sent_initial (offers E a (io a) 0 sys_init h)) as [r2 J]. fold (attempts E a (io a) h) in J. unfold wire in I. rewrite I in J.
    exists (r1 ++ r2). now rewrite J, app_assoc.
  - rewrite Rd in G1. assert (got a = g) as ->; [|exact G2]. clear - G1. revert g G1. induction (got a) as [|x l IH]; intros [|y g] X; try discriminate; [reflexivity|]. injection X as -> X. f_equal. auto.
Qed.
(** If the transport fails for good, if at all, a beginning of all that was written. *)
Lemma got_written E io h s got a : reach E h s -> clock_fits a h -> fails_for_good (attempts E a (io a) h) -> (forall n o, In (n, o) (queued a (s_log s)) -> sendable_request o) ->
  brokers_read E io h got -> exists mcs, initial (got a) mcs /\ Forall2 request_of (written a (s_log s)) mcs.
Proof.
  intros H Ck Fg Q G. destruct (G a) as (reads & I & Rd). destruct (attempts_frames E a (io a) h s H Ck Q) as (W & mcs & F1 & F2 & F3). exists mcs. split; [|exact F3].
  destruct (some_frames (e_oc E) mcs (map at_frame (attempts E a (io a) h)) reads) as (g & G1 & G2); [exact F1|now apply (Forall2_map_r (fun mc b => encode (e_oc E) mc = Ok b) at_frame)| |].
  - destruct I as [r1 I], (good_initial (offers E a (io a) 0 sys_init h) Fg) as [r2 J]. fold (attempts E a (io a) h) in J. unfold wire in I. rewrite I in J.
    unfold attempts at 1. rewrite send_all_frames. exists (r1 ++ r2). now rewrite J, app_assoc.
  - rewrite Rd in G1. assert (got a = g) as ->; [|exact G2]. clear - G1. revert g G1. induction (got a) as [|x l IH]; intros [|y g] X; try discriminate; [reflexivity|]. injection X as -> X. f_equal. auto.
Qed.
Lemma Forall2_nth {A B} (R : A -> B -> Prop) l m i y : Forall2 R l m -> nth_error m i = Some y -> exists x, nth_error l i = Some x /\ R x y.
Proof. intros F. revert i. induction F; intros [|i]; cbn; try discriminate; [intros [= <-]; eauto|auto]. Qed.
Lemma initial_nth {A} (a b : list A) i x : initial a b -> nth_error a i = Some x -> nth_error b i = Some x.
Proof. intros [r ->] H. rewrite nth_error_app1; [exact H|]. apply nth_error_Some. congruence. Qed.
Lemma taken_written E a io h s : reach E h s -> clock_fits a h -> (forall n o, In (n, o) (queued a (s_log s)) -> sendable_request o) ->
  forall x, In x (taken_up (attempts E a (io a) h)) -> In x (written a (s_log s)).
Proof.
  intros H Ck Q x X. destruct (attempts_frames E a (io a) h s H Ck Q) as [<- _]. unfold taken_up in X. apply in_map_iff in X as (y & <- & Y). apply in_map. now apply filter_In in Y.
Qed.
(** A send command the broker has read is a send of the log. *)
Lemma read_send E io h s got a i mc seq : reach E h s -> clock_fits a h -> (forall n o, In (n, o) (queued a (s_log s)) -> sendable_request o) ->
  brokers_read E io h got -> nth_error (got a) i = Some mc -> send_command mc seq ->
  exists n p now, nth_error (taken_up (attempts E a (io a) h)) i = Some (Some n, OSend p) /\ In (Some n, OSend p) (written a (s_log s)) /\ requested (s_log s) n (OSend p) /\
    kind_of (OSend p) = Some (KSend seq) /\ now < 2 ^ 64 /\ denotes now (OSend p) mc.
Proof.
  intros H Ws Q G Hi (sub & Hc & Hs). destruct (got_taken E io h s got a H Ws Q G) as (mcs & I & F).
  apply (initial_nth _ _ _ _ I) in Hi. destruct (Forall2_nth _ _ _ _ _ F Hi) as ([src o] & Hw & now & Hn & D). cbn [snd] in D.
  destruct Hc as (C1 & C2 & C3).
  assert (O : exists p, o = OSend p /\ kind_of (OSend p) = Some (KSend seq)).
  { assert (Z : forall ty k s0, carries mc ty k s0 -> ty = 6%Z) by (intros ty k s0 (X & _); congruence).
    destruct o as [| | |p| | | | | |]; cbn [denotes] in D; try (exfalso; decompose [and ex] D; match goal with X : carries mc _ _ _ |- _ => apply Z in X; discriminate end).
    exists p. split; [reflexivity|]. destruct D as (s0 & p0 & (D1 & D2 & _) & _ & D3). assert (s0 = sub) as -> by congruence.
    unfold int_field in *. destruct p as [name pid sq data|name pid sq datas]; destruct D3 as (_ & D4 & _); cbn [kind_of]; do 2 f_equal;
      rewrite D4 in Hs; injection Hs as Hs; now apply N2Z.inj in Hs. }
  destruct O as (p & -> & K).
  assert (W : exists n ok, src = Some n /\ In (OWrite a (Some n) (OSend p) ok) (s_log s)).
  { apply nth_error_In, (taken_written E a io h s H Ws Q) in Hw. unfold written in Hw. apply in_flat_map in Hw as (x & Hx & Hy). destruct x as [| | | | | | |b sr o ok| | | | | | | | | | |]; try contradiction.
    destruct (baddr_eqb b a) eqn:B; [|contradiction]. apply baddr_eqb_spec in B. subst b. destruct Hy as [[= -> ->]|[]].
    destruct src as [n|]; [eauto|]. apply (C40_engine_writes_pongs E h s) in Hx; [discriminate|exact H]. }
  destruct W as (n & ok & -> & W). exists n, p, now. split; [exact Hw|]. split; [apply nth_error_In, (taken_written E a io h s H Ws Q) in Hw; exact Hw|]. split; [|auto].
  destruct (C39_commands_unchanged E h s a n _ ok H W) as (q & R & X). destruct q; try (rewrite X; exact R). destruct X as (d & m & X). discriminate.
Qed.
(** An answered send has been answered by a receipt with its number, from the wire. *)
Lemma answered_send E h s n p ser i : reach E h s -> requested (s_log s) n (OSend p) -> In (OAnswer n ser i) (s_log s) ->
  exists a mc pid seq mid, i = InReceipt pid seq mid /\ kind_of (OSend p) = Some (KSend seq) /\ In (EvNet a (IFrame mc)) h /\ to_inbound mc = Ok i.
Proof.
  intros H R A. apply in_split in A as (l1 & l2 & El). destruct (C34_answer_of_its_kind E h s _ _ _ _ _ H El) as (l0 & a & i0 & k & L & Ar & Se & (o & Ro & Ko & _) & An).
  assert (o = OSend p).
  { destruct R as [c R], Ro as [c' Ro]. eapply (r_uniq s (v_r E s (reach_all E h s H)) c' n _ c); [rewrite El, L; apply in_app_iff; left; apply in_app_iff; left; exact Ro|exact R]. }
  subst o. assert (exists seq, k = KSend seq) as [seq ->] by (destruct p; cbn in Ko; injection Ko as <-; eauto).
  destruct i as [| | |pid sq mid| | | | | |]; try contradiction. cbn in An. subst sq.
  assert (i0 = InReceipt pid seq mid) as -> by (destruct i0; cbn in Se; try congruence; destruct Se as (? & ? & _); discriminate).
  assert (Av : In (InReceipt pid seq mid) (arrivals a (s_log s))).
  { unfold arrivals. apply in_flat_map. exists (OArrive a ser (InReceipt pid seq mid)). split; [rewrite El, L; apply in_app_iff; left; apply in_app_iff; left; exact Ar|].
    rewrite baddr_eqb_refl. now left. }
  rewrite (reach_nets E h s a H) in Av. unfold events in Av. apply in_flat_map in Av as (it & Hit & Hi). destruct it as [mc| | |]; try contradiction.
  unfold nets in Hit. apply in_flat_map in Hit as (e & He & Hx). destruct e as [| | | | | | | | | | | | | | | |b x]; try contradiction.
  destruct (baddr_eqb b a) eqn:B; [|contradiction]. destruct Hx as [->|[]]. apply baddr_eqb_spec in B. subst b.
  exists a, mc, pid, seq, mid. split; [reflexivity|]. split; [exact Ko|]. split; [exact He|].
  destruct (to_inbound mc) as [j| |]; try contradiction. destruct j; cbn in Hi; try contradiction; destruct Hi as [Hi|[]]; try discriminate; now rewrite Hi.
Qed.

(** An answered send has succeeded: [send] returns Ok. *)
Theorem C66_answered_send_succeeds : forall T (ser : T -> option bytes) id name cs m data E h s n num i, reach E h s ->
  ser m = Some data -> requested (s_log s) n (OSend (SSingle name id (sequence_id cs) data)) -> In (OAnswer n num i) (s_log s) ->
  exec (send ser id name cs m) [Resolved i] = ([OSend (SSingle name id (sequence_id cs) data)], Some (Ok tt)).
Proof.
  intros T ser id name cs m data E h s n num i H D R A. destruct (answered_send E h s n _ num i H R A) as (a & mc & pid & seq & mid & -> & _).
  pose proof (C24_send T ser id name cs m) as X. rewrite D in X. destruct X as (_ & _ & X & _). destruct (X (InReceipt pid seq mid) []) as [X'|[_ X']]; [exact X'|].
  exfalso. apply X'. unfold a_receipt. eauto.
Qed.
(** If no two sends share a number and receipts are only for what was read, then the
    broker has read the very command of every send that has succeeded: its producer,
    number, name and payload. *)
Theorem C66_ok_means_read : forall E io h s got n p num i, reach E h s ->
  (forall a, clock_fits a h) -> (forall a m o, In (m, o) (queued a (s_log s)) -> sendable_request o) ->
  brokers_read E io h got -> receipts_for_read h got -> distinct_sends (s_log s) ->
  requested (s_log s) n (OSend p) -> In (OAnswer n num i) (s_log s) ->
  exists a mc now, In mc (got a) /\ now < 2 ^ 64 /\ denotes now (OSend p) mc.
Proof.
  intros E io h s got n p num i H Ws Q G Rc Ds R A. destruct (answered_send E h s n p num i H R A) as (a & mc & pid & seq & mid & -> & K & Hn & Hi).
  destruct (Rc a mc pid seq mid Hn Hi) as (mc' & Hm & Sc). apply In_nth_error in Hm as [j Hj].
  destruct (read_send E io h s got a j mc' seq H (Ws a) (Q a) G Hj Sc) as (n' & p' & now & _ & _ & R' & K' & Hw & D).
  assert (n' = n) as -> by (apply (Ds n' n p' p R' R); congruence).
  assert (X : OSend p' = OSend p) by (destruct R as [c R], R' as [c' R']; eapply (r_uniq s (v_r E s (reach_all E h s H)) c' n _ c); eassumption).
  rewrite X in D. exists a, mc', now. split; [eapply nth_error_In; exact Hj|auto].
Qed.
(** And it reads the command of a send at most once, on one connection: nothing is
    ever sent twice. *)
Lemma nodup_app_r {A} (a b : list A) : NoDup (a ++ b) -> NoDup b.
Proof. induction a as [|x a IH]; cbn; [auto|]. intros H. inversion H; auto. Qed.
Lemma srcs_nth l : NoDup (srcs l) -> forall i j n o o', nth_error l i = Some (Some n, o) -> nth_error l j = Some (Some n, o') -> i = j.
Proof.
  induction l as [|[x o0] l IH]; intros Nd i j n o o' Hi Hj; [destruct i; discriminate|].
  assert (In_s : forall k o1, nth_error l k = Some (Some n, o1) -> In n (srcs l)).
  { intros k o1 X. apply nth_error_In in X. unfold srcs. apply in_flat_map. exists (Some n, o1). split; [exact X|now left]. }
  change (srcs ((x, o0) :: l)) with ((match x with Some m => [m] | None => [] end) ++ srcs l) in Nd.
  destruct i as [|i], j as [|j]; cbn [nth_error] in *; auto.
  - injection Hi as -> ->. inversion Nd; subst. exfalso. eauto.
  - injection Hj as -> ->. inversion Nd; subst. exfalso. eauto.
  - f_equal. refine (IH _ i j n o o' Hi Hj). now apply nodup_app_r in Nd.
Qed.
Lemma forwards_written E h s a : reach E h s -> initial (written a (s_log s)) (queued a (s_log s)) /\ NoDup (srcs (queued a (s_log s))).
Proof.
  intros H. destruct (reach_queues E h s H) as [Q (rest & T & _)]. pose proof (v_r E s (reach_all E h s H)) as R. split.
  - destruct (get_conn a (s_conns s)) as [k|] eqn:K.
    + destruct (q_out s Q a k K) as (lost & X & _). rewrite X. eexists. reflexivity.
    + destruct (q_none s Q a K) as (-> & -> & _). exists []. reflexivity.
  - assert (Hnd : NoDup (forwarded (s_log s))) by (pose proof (r_tknd s R) as X; rewrite T in X; now apply NoDup_app_l in X).
    rewrite srcs_queued, <- (forwarded_sent a _ Hnd). now apply NoDup_filter.
Qed.
Lemma srcs_app l m : srcs (l ++ m) = srcs l ++ srcs m.
Proof. apply flat_map_app. Qed.
Lemma nodup_taken w : NoDup (srcs (map at_cmd w)) -> NoDup (srcs (taken_up w)).
Proof.
  unfold taken_up. intros N. enough (X : NoDup (srcs (map at_cmd (filter at_taken w))) /\ forall n, In n (srcs (map at_cmd (filter at_taken w))) -> In n (srcs (map at_cmd w))) by apply X.
  induction w as [|x w IH]; [split; [constructor|auto]|]. cbn [map] in N. change (at_cmd x :: map at_cmd w) with ([at_cmd x] ++ map at_cmd w) in N. rewrite srcs_app in N.
  destruct (IH (nodup_app_r _ _ N)) as [I1 I2]. cbn [map filter]. change (at_cmd x :: map at_cmd w) with ([at_cmd x] ++ map at_cmd w). rewrite srcs_app.
  destruct (at_taken x); [|split; [exact I1|intros n Hn; apply in_app_iff; auto]]. cbn [map]. change (at_cmd x :: map at_cmd (filter at_taken w)) with ([at_cmd x] ++ map at_cmd (filter at_taken w)). rewrite srcs_app.
  split; [|intros n Hn; apply in_app_iff in Hn as [Hn|Hn]; apply in_app_iff; auto].
  destruct (at_cmd x) as [[n|] o]; cbn in *; [|exact I1]. inversion N; subst. constructor; auto.
Qed.
Theorem C66_read_once : forall E io h s got a b i j mc mc' seq, reach E h s ->
  (forall a, clock_fits a h) -> (forall a m o, In (m, o) (queued a (s_log s)) -> sendable_request o) ->
  brokers_read E io h got -> distinct_sends (s_log s) ->
  nth_error (got a) i = Some mc -> nth_error (got b) j = Some mc' -> send_command mc seq -> send_command mc' seq -> a = b /\ i = j.
Proof.
  intros E io h s got a b i j mc mc' seq H Ws Q G Ds Hi Hj S1 S2.
  destruct (read_send E io h s got a i mc seq H (Ws a) (Q a) G Hi S1) as (n & p & _ & W & V & R & K & _).
  destruct (read_send E io h s got b j mc' seq H (Ws b) (Q b) G Hj S2) as (n' & p' & _ & W' & V' & R' & K' & _).
  assert (n' = n) as -> by (apply (Ds n' n p' p R' R); congruence).
  destruct (forwards_written E h s a H) as [Ia Na], (forwards_written E h s b H) as [Ib _].
  assert (Va : In (Some n, OSend p) (queued a (s_log s))) by (destruct Ia as [r ->]; apply in_app_iff; auto).
  assert (Vb : In (Some n, OSend p') (queued b (s_log s))) by (destruct Ib as [r ->]; apply in_app_iff; auto).
  assert (Fw : forall c o, In (Some n, o) (queued c (s_log s)) -> In (OForward n c o) (s_log s)).
  { intros c o X. unfold queued in X. apply in_flat_map in X as (x & Hx & Hy). destruct x; try contradiction.
    - destruct (baddr_eqb a0 c) eqn:B; [|contradiction]. destruct Hy as [[= -> ->]|[]]. apply baddr_eqb_spec in B. now subst a0.
    - destruct (baddr_eqb a0 c); [|contradiction]. now destruct Hy as [Hy|[]]. }
  assert (a = b) as <-.
  { apply Fw in Va, Vb. assert (En := reach_entries E h s H). destruct (baddr_dec a b) as [X|X]; [exact X|exfalso].
    apply in_split in Va as (l1 & l2 & El). rewrite El in Vb. apply in_app_iff in Vb as [Vb|[Vb|Vb]].
    - destruct (En _ _ _ El) as (_ & _ & _ & F & _). exact (F _ _ Vb).
    - congruence.
    - apply in_split in Vb as (l3 & l4 & ->). destruct (En (l1 ++ OForward n a (OSend p) :: l3) (OForward n b (OSend p')) l4) as (_ & _ & _ & F & _); [rewrite El, <- app_assoc; reflexivity|].
      apply (F a (OSend p)). apply in_app_iff. right. now left. }
  split; [reflexivity|]. refine (srcs_nth _ _ i j n _ _ W W'). apply nodup_taken. destruct (attempts_frames E a (io a) h s H (Ws a) (Q a)) as [-> _].
  destruct Ia as [r Ia]. rewrite Ia, srcs_app in Na. now apply NoDup_app_l in Na.
Qed.
(** With a single producer client the numbers are distinct (C18). *)
Lemma nodup_flat_map {A B} (g : A -> list B) l x y v : NoDup (flat_map g l) -> In x l -> In y l -> In v (g x) -> In v (g y) -> x = y.
Proof.
  induction l as [|z l IH]; intros Nd Hx Hy Vx Vy; [contradiction|]. cbn [flat_map] in Nd.
  assert (D : forall w, In w l -> In v (g w) -> In v (g z) -> False).
  { intros w Hw Vw Vz. assert (X : In v (flat_map g l)) by (apply in_flat_map; eauto). clear - Nd Vz X.
    induction (g z) as [|u r IHr]; [contradiction|]. cbn in Nd. inversion Nd; subst. destruct Vz as [->|Vz]; [|auto]. apply H1. apply in_app_iff. auto. }
  destruct Hx as [->|Hx], Hy as [->|Hy]; auto; [exfalso; eauto|exfalso; eauto|]. apply IH; auto. now apply nodup_app_r in Nd.
Qed.
Theorem C66_one_producer : forall E h s c id name hc cl, reach E h s ->
  cl_run id name client_init hc = Some cl -> N.of_nat (length (cl_built cl)) <= 2 ^ 64 -> requests c (s_log s) = cl_queue cl ->
  (forall c' n p, In (OIssue c' n (OSend p)) (s_log s) -> c' = c) -> distinct_sends (s_log s).
Proof.
  intros E h s c id name hc cl H Hr Hn Rq Only n m p q [c1 R1] [c2 R2] K. assert (c1 = c) by eauto. assert (c2 = c) by eauto. subst c1 c2.
  destruct (C18_queued_unique id name hc cl Hr Hn) as [_ Nd]. rewrite <- Rq in Nd.
  set (g := fun x => match x with OIssue c' _ o => if (c' =? c)%nat then match sequence_number o with Some v => [v] | None => [] end else [] | _ => [] end).
  assert (Fg : numbers sequence_number (requests c (s_log s)) = flat_map g (s_log s)).
  { generalize (s_log s). intros l. induction l as [|x l IH]; [reflexivity|]. unfold requests, numbers in *. cbn [flat_map]. rewrite flat_map_app, IH. f_equal.
    destruct x; try reflexivity. cbn. destruct (h0 =? c)%nat; [|reflexivity]. cbn [flat_map]. now rewrite app_nil_r. }
  rewrite Fg in Nd. assert (exists v, kind_of (OSend p) = Some (KSend v)) as [v Kp] by (destruct p; cbn; eauto).
  assert (X : OIssue c n (OSend p) = OIssue c m (OSend q)); [|now injection X].
  apply (nodup_flat_map g (s_log s) _ _ v Nd R1 R2); unfold g; rewrite Nat.eqb_refl.
  - destruct p; cbn in *; injection Kp as ->; now left.
  - rewrite Kp in K. destruct q; cbn in *; injection K as ->; now left.
Qed.
Print Assumptions C66_answered_send_succeeds.
Print Assumptions C66_ok_means_read.
Print Assumptions C66_read_once.
Print Assumptions C66_one_producer.

(** * Cases *)
(** The brokers that have read everything written. *)
Definition read_everything (E : env) (io : baddr -> nat -> io_plan) (h : list event) (a : baddr) : list msg_cmd :=
  flat_map (fun x => match x with IFrame mc => [mc] | _ => [] end) (stream_items [wire E a (io a) h] false).
Lemma read_all E io h s : reach E h s -> (forall a, writes_succeed E a (io a) h) -> (forall a m o, In (m, o) (queued a (s_log s)) -> sendable_request o) ->
  brokers_read E io h (read_everything E io h) /\ forall a, Forall2 request_of (written a (s_log s)) (read_everything E io h a).
Proof.
  intros H Ws Q.
  assert (X : forall a, stream_items [wire E a (io a) h] false = map IFrame (read_everything E io h a) /\ Forall2 request_of (written a (s_log s)) (read_everything E io h a)).
  { intros a. destruct (C60_wire_bytes E h s a (io a) [wire E a (io a) h] H (Ws a) (Q a) (app_nil_r _)) as (mcs & M1 & M2).
    assert (read_everything E io h a = mcs) as ->; [|auto]. unfold read_everything. rewrite M1. clear. induction mcs as [|m l IH]; [reflexivity|]. cbn. now rewrite IH. }
  split; [|intros a; apply X]. intros a. exists [wire E a (io a) h]. split; [exists []; cbn; now rewrite !app_nil_r|apply X].
Qed.
Definition z_p : send_req := SSingle (str "p") 0 0 (str "d").
Definition z_q : send_req := SSingle (str "q") 1 0 (str "e").
(** One producer: its send is queued, written, acknowledged. *)
Definition z_one : list event := x_reg2 ++ x_connect 0%nat ++
  [EvIssue 0%nat (OSend z_p); EvClient 0%nat; EvWrite xA 0 true; EvNet xA (f_receipt 0 0); EvConn xA].
(** Two producers: the second's send, with the same number, is taken but not written
    when the receipt for the first arrives. *)
Definition z_two : list event := x_reg2 ++ x_connect 0%nat ++
  [EvIssue 0%nat (OSend z_p); EvClient 0%nat; EvWrite xA 0 true; EvIssue 1%nat (OSend z_q); EvClient 1%nat; EvNet xA (f_receipt 0 0); EvConn xA].
Ltac walk X := repeat (destruct X as [X|X]; [try discriminate X|]); try contradiction.
Definition z_io (_ : baddr) : nat -> io_plan := steady.
Lemma z_writes h : h = z_one \/ h = z_two -> forall a, writes_succeed xE a (z_io a) h.
Proof.
  intros Hh a. split; [|intros now ok X; destruct Hh as [-> | ->]; unfold z_one, z_two, x_reg2, x_connect in X; cbn [app In] in X; walk X; injection X as _ <- _; reflexivity].
  destruct (baddr_dec a xA) as [->|N]; [destruct Hh as [-> | ->]; apply all_ok_check; vm_compute; reflexivity|].
  intros x X. exfalso. rewrite no_offers in X; [destruct X|]. clear X. intros now ok Y. destruct Hh as [-> | ->]; unfold z_one, z_two, x_reg2, x_connect in Y; cbn [app In] in Y; walk Y; injection Y; intros _ _ Y'; apply N; symmetry; exact Y'.
Qed.
Definition log_of (h : list event) : list obs := match run xE sys_init h with Some s => s_log s | None => [] end.
Definition z_one_log : list obs := Eval vm_compute in log_of z_one.
Definition z_two_log : list obs := Eval vm_compute in log_of z_two.
Lemma z_one_eq : log_of z_one = z_one_log. Proof. vm_compute. reflexivity. Qed.
Lemma z_two_eq : log_of z_two = z_two_log. Proof. vm_compute. reflexivity. Qed.
Ltac z_log Hh := destruct Hh as [-> | ->]; [rewrite z_one_eq in *; unfold z_one_log in *|rewrite z_two_eq in *; unfold z_two_log in *].
Lemma z_reach h : h = z_one \/ h = z_two -> exists s, reach xE h s /\ s_log s = log_of h.
Proof.
  intros Hh. unfold reach. destruct (run xE sys_init h) as [s|] eqn:R; [exists s; split; [reflexivity|]; unfold log_of; now rewrite R|].
  exfalso. assert (X : log_of h = []) by (unfold log_of; now rewrite R). destruct Hh as [-> | ->]; [rewrite z_one_eq in X|rewrite z_two_eq in X]; discriminate X.
Qed.
Ltac z_fit := split; [unfold z_p, z_q; cbn [req_ok]; repeat match goal with |- _ /\ _ => split end; vm_compute; auto|split; [vm_compute; reflexivity|discriminate]].
Definition z_c : outbound := OConnect (mk_connect None None (Some xA)).
Lemma z_sendable h : h = z_one \/ h = z_two -> forall a m o, In (m, o) (queued a (log_of h)) -> sendable_request o.
Proof.
  intros Hh a m o X. unfold queued in X. apply in_flat_map in X as (x & Hx & Hy).
  assert (S1 : sendable_request (OSend z_p)) by z_fit.
  assert (S2 : sendable_request (OSend z_q)) by z_fit.
  assert (S3 : sendable_request z_c) by z_fit.
  destruct x as [| | | | |n b o1| | | | | | | | | | | | |]; try contradiction.
  - assert (O : o1 = OSend z_p \/ o1 = OSend z_q \/ o1 = z_c).
    { z_log Hh; cbn [In] in Hx; walk Hx; injection Hx as _ _ <-; auto. }
    destruct (baddr_eqb b a); [|contradiction]. destruct Hy as [[= _ <-]|[]]. destruct O as [-> |[-> | ->]]; auto.
  - exfalso. z_log Hh; cbn [In] in Hx; walk Hx.
Qed.
Lemma z_written h : h = z_one \/ h = z_two -> forall a, written a (log_of h) =
  if baddr_eqb xA a then [(Some 0%nat, z_c); (Some 1%nat, OSend z_p)] else [].
Proof. intros Hh a. z_log Hh; unfold written; cbn [flat_map]; change (Direct _) with xA; destruct (baddr_eqb xA a); reflexivity. Qed.
Definition z_receipt : msg_cmd := match f_receipt 0 0 with IFrame m => m | _ => mk_cmd [] None end.
Lemma z_receipts h : h = z_one \/ h = z_two -> receipts_for_read h (read_everything xE z_io h).
Proof.
  intros Hh. destruct (z_reach h Hh) as (s & R & L). pose proof (z_sendable h Hh) as Q. rewrite <- L in Q.
  destruct (read_all xE z_io h s R (z_writes h Hh) Q) as [_ F]. intros a mc pid seq mid Hi Hm.
  assert (X : a = xA /\ mc = z_receipt \/ to_inbound mc = Ok InConnected).
  { destruct Hh as [-> | ->]; unfold z_one, z_two, x_reg2, x_connect in Hi; cbn [app In] in Hi; walk Hi; injection Hi as <- <-; [right|left|right|left]; try (split; reflexivity); vm_compute; reflexivity. }
  destruct X as [[-> ->]|X]; [|rewrite X in Hm; discriminate]. assert (seq = 0) as -> by (vm_compute in Hm; injection Hm; auto).
  specialize (F xA). rewrite L, (z_written h Hh), baddr_eqb_refl in F. revert F. generalize (read_everything xE z_io h xA). intros g F. inversion F as [|? m0 ? ? _ F1 E0 E1]; subst. inversion F1 as [|? m1 ? ? D F2 E2 E3]; subst.
  exists m1. split; [right; now left|]. destruct D as (now & _ & sub & p & C & _ & _ & I & _). exists sub. auto.
Qed.
(** One producer: all hypotheses of C66_ok_means_read hold, the send has succeeded. *)
Example C66_meets : exists s num i, reach xE z_one s /\ (forall a, clock_fits a z_one) /\
  (forall a m o, In (m, o) (queued a (s_log s)) -> sendable_request o) /\
  brokers_read xE z_io z_one (read_everything xE z_io z_one) /\ receipts_for_read z_one (read_everything xE z_io z_one) /\ distinct_sends (s_log s) /\
  requested (s_log s) 1%nat (OSend z_p) /\ In (OAnswer 1%nat num i) (s_log s).
Proof.
  assert (Hh : z_one = z_one \/ z_one = z_two) by auto. destruct (z_reach z_one Hh) as (s & R & L). exists s, 1%nat, (InReceipt 0 0 mid56).
  pose proof (z_sendable z_one Hh) as Q. rewrite <- L in Q. split; [exact R|]. split; [intros a; exact (proj2 (z_writes _ Hh a))|]. split; [exact Q|].
  split; [exact (proj1 (read_all xE z_io z_one s R (z_writes _ Hh) Q))|]. split; [now apply z_receipts|]. rewrite L, z_one_eq. split; [|split].
  - assert (X : forall k q, requested z_one_log k (OSend q) -> k = 1%nat). { intros k q [c X]. unfold z_one_log in X. cbn [In] in X. walk X. injection X as _ <- _. reflexivity. }
    intros n m p q H1 H2 _. apply X in H1, H2. congruence.
  - exists 0%nat. unfold z_one_log. cbn [In]. tauto.
  - unfold z_one_log. cbn [In]. tauto.
Qed.
(** Two producers, one number: the brokers behave, the second send succeeds, and its
    command has not been read, not even written. *)
Theorem C66_needs_distinct_numbers : exists E io h s got n p num i, reach E h s /\ (forall rank, as_polled E rank h) /\
  (forall a, writes_succeed E a (io a) h) /\ (forall a m o, In (m, o) (queued a (s_log s)) -> sendable_request o) /\
  brokers_read E io h got /\ (forall a, exists reads, concat reads = wire E a (io a) h /\ stream_items reads false = map IFrame (got a)) /\
  receipts_for_read h got /\ requested (s_log s) n (OSend p) /\ In (OAnswer n num i) (s_log s) /\
  forall a mc now, In mc (got a) -> ~ denotes now (OSend p) mc.
Proof.
  assert (Hh : z_two = z_one \/ z_two = z_two) by auto. destruct (z_reach z_two Hh) as (s & R & L).
  exists xE, z_io, z_two, s, (read_everything xE z_io z_two), 2%nat, z_q, 1%nat, (InReceipt 0 0 mid56).
  pose proof (z_sendable z_two Hh) as Q. rewrite <- L in Q. split; [exact R|]. split; [apply orderly_polled; vm_compute; reflexivity|]. split; [now apply z_writes|]. split; [exact Q|].
  destruct (read_all xE z_io z_two s R (z_writes _ Hh) Q) as [B F]. split; [exact B|]. split.
  { intros a. exists [wire xE a (z_io a) z_two]. split; [apply app_nil_r|]. destruct (C60_wire_bytes xE z_two s a (z_io a) [wire xE a (z_io a) z_two] R (z_writes _ Hh a) (Q a) (app_nil_r _)) as (mcs & M1 & _).
    unfold read_everything. rewrite M1. f_equal. clear. induction mcs as [|m l IH]; [reflexivity|]. cbn. now rewrite <- IH. }
  split; [now apply z_receipts|]. split; [|split].
  - exists 1%nat. rewrite L, z_two_eq. unfold z_two_log. cbn [In]. tauto.
  - rewrite L, z_two_eq. unfold z_two_log. cbn [In]. tauto.
  - intros a mc now Hi D. specialize (F a). rewrite L, (z_written z_two Hh) in F. revert Hi F. generalize (read_everything xE z_io z_two a). intros g Hi F. destruct (baddr_eqb xA a).
    + inversion F as [|? m0 ? ? D0 F1 E0 E1]; subst. inversion F1 as [|? m1 ? ? D1 F2 E2 E3]; subst. inversion F2; subst.
      destruct D as (sub & p & (C1 & C2 & _) & _ & P1 & _). destruct Hi as [<-|[<-|[]]].
      * destruct D0 as (t & _ & _ & s0 & (X & _) & _). congruence.
      * destruct D1 as (t & _ & s1 & p1 & (X & Y & _) & _ & P2 & _). assert (s1 = sub) by congruence. subst s1. unfold int_field in *. rewrite P1 in P2. discriminate.
    + inversion F; subst. contradiction.
Qed.
Print Assumptions C66_needs_distinct_numbers.
(** The run of C60_meets: one producer client. *)
Example C66_meets_one_producer : exists s cl, reach xE y_ops s /\ cl_run 0 (str "p") client_init y_cl = Some cl /\ N.of_nat (length (cl_built cl)) <= 2 ^ 64 /\
  requests 0%nat (s_log s) = cl_queue cl /\ (forall c' n p, In (OIssue c' n (OSend p)) (s_log s) -> c' = 0%nat) /\ (2 <= length (filter is_send (calls y_cl)))%nat.
Proof.
  destruct C60_meets as (s & cl & reads & R1 & _ & _ & R2 & R3 & _). exists s, cl. split; [exact R2|]. split; [exact R1|].
  split; [vm_compute in R1; injection R1 as <-; vm_compute; discriminate|]. split; [exact R3|]. split; [|vm_compute; auto].
  intros c' n p X. unfold reach in R2. vm_compute in R2. injection R2 as <-. cbn [s_log In] in X. walk X; injection X as <- _ _; reflexivity.
Qed.
