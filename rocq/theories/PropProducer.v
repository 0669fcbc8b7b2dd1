(** C24: what sending and acknowledging calls report. *)
From Verif Require Import Bytes Errors Wire Proto Address Message Client SpecClient Producer.
Open Scope N_scope.

(** A call that makes request [o] and waits: it makes that request and no other,
    succeeds exactly when the reply is an event satisfying [good], reports
    ChannelTerminated when the engine is lost, Unresolvable on another event, and
    does not finish before a reply is there. *)
Definition reports (p : prog) (o : outbound) (good : inbound -> Prop) : Prop :=
  exec p [] = ([o], None) /\
  (forall r rs, snd (exec p (r :: rs)) = Some (Ok tt) <-> exists i, r = Resolved i /\ good i) /\
  (forall i rs, exec p (Resolved i :: rs) = ([o], Some (Ok tt)) \/ exec p (Resolved i :: rs) = ([o], Some (Err Unresolvable)) /\ ~ good i) /\
  (forall rs, exec p (Cancelled :: rs) = ([o], Some (Err ChannelTerminated))) /\
  (forall rs, exec p (NotQueued :: rs) = ([], Some (Err ChannelTerminated))).

Definition a_receipt (i : inbound) : Prop := exists p q mid, i = InReceipt p q mid.
Definition an_ack_receipt (i : inbound) : Prop := exists cid rid, i = InAckReceipt cid rid.

Lemma ask_reports id name s c o s' k good : build id name s c = (o, s') -> resp_of o = Some k -> (forall i, is_resp k i = true <-> good i) ->
  reports (ask id name s c (fun _ _ => Done (Ok tt))) o good.
Proof.
  intros HB HK HG. unfold reports, ask. rewrite HB. cbn [exec]. split; [reflexivity|].
  assert (HR : forall i, ask_result o (Resolved i) = convert k i) by (intros i; cbn; now rewrite HK).
  split; [|split; [|split; reflexivity]].
  - intros r rs. destruct r as [i| |]; rewrite ?HR; cbn.
    + unfold convert. destruct (is_resp k i) eqn:E; cbn.
      * split; [intros _; exists i; split; [reflexivity|now apply HG]|reflexivity].
      * split; [discriminate|]. intros (j & Ej & Hj). inversion Ej; subst. apply HG in Hj. congruence.
    + split; [discriminate|]. now intros (j & Ej & _).
    + split; [discriminate|]. now intros (j & Ej & _).
  - intros i rs. rewrite HR. unfold convert. destruct (is_resp k i) eqn:E; cbn; [now left|]. right. split; [reflexivity|].
    intros H. apply HG in H. congruence.
Qed.
Lemma receipt_kind i : is_resp RReceipt i = true <-> a_receipt i.
Proof. unfold a_receipt. destruct i; cbn; split; intros H; try discriminate; try (destruct H as (? & ? & ? & H); discriminate H); eauto. Qed.
Lemma ack_receipt_kind i : is_resp RAckReceipt i = true <-> an_ack_receipt i.
Proof. unfold an_ack_receipt. destruct i; cbn; split; intros H; try discriminate; try (destruct H as (? & ? & H); discriminate H); eauto. Qed.

(** C24: a single send. *)
Theorem C24_send : forall T (ser : T -> option bytes) id name s m,
  match ser m with
  | Some data => reports (send ser id name s m) (OSend (SSingle name id (sequence_id s) data)) a_receipt
  | None => forall rs, exec (send ser id name s m) rs = ([], Some (Err SerializationFailed))
  end.
Proof.
  intros T ser id name s m. unfold send. destruct (ser m) as [data|]; [|reflexivity].
  eapply ask_reports; [reflexivity|reflexivity|apply receipt_kind].
Qed.
(** C24: a batch send: one request with all payloads in order; a payload that
    cannot be serialised panics (it does not become an error). *)
Theorem C24_send_batch : forall T (ser : T -> option bytes) id name s ms,
  (forall datas, map ser ms = map Some datas ->
     reports (send_batch ser id name s ms) (OSend (SBatch name id (sequence_id s) datas)) a_receipt) /\
  (forall m, In m ms -> ser m = None -> forall rs, exec (send_batch ser id name s ms) rs = ([], Some Panic)).
Proof.
  intros T ser id name s ms. split.
  - intros datas HM. assert (E : ser_all ser ms = Some datas).
    { revert datas HM. induction ms as [|m ms IH]; intros [|d ds] HM; try discriminate; [reflexivity|].
      cbn in HM. inversion HM as [[H1 H2]]. cbn. rewrite H1, (IH ds H2). reflexivity. }
    unfold send_batch. rewrite E. eapply ask_reports; [reflexivity|reflexivity|apply receipt_kind].
  - intros m Hin HN. assert (E : ser_all ser ms = None).
    { induction ms as [|x ms IH]; [destruct Hin|]. cbn. destruct Hin as [->|Hin]; [now rewrite HN|]. rewrite (IH Hin). now destruct (ser x). }
    unfold send_batch. rewrite E. reflexivity.
Qed.
(** C24: acknowledging one message. *)
Theorem C24_ack : forall id name s mid,
  reports (ack id name s mid) (OAck [mk_ack id mid (request_id s)]) an_ack_receipt.
Proof. intros. eapply ask_reports; [reflexivity|reflexivity|apply ack_receipt_kind]. Qed.

(** * send_all and ack_all *)
Definition pending_fate (f : fate) : Prop := f = Queued None.
(** Number of items that become requests. *)
Definition convertible {A} (conv : A -> option call) (items : list A) : nat :=
  length (filter (fun x => match conv x with Some _ => true | None => false end) items).

Lemma issue_done {A} (conv : A -> option call) id name : forall items s fates, (length fates = convertible conv items)%nat ->
  (join_all (fst (partition_result (snd (issue conv id name s items fates)))) <> None <-> ~ Exists pending_fate fates).
Proof.
  induction items as [|x items IH]; intros s fates HL.
  - destruct fates; [|discriminate]. cbn. split; [intros _ H; inversion H|discriminate].
  - cbn. unfold convertible in HL. cbn [filter] in HL. destruct (conv x) as [c|].
    + cbn in HL. destruct fates as [|f fs]; [discriminate|]. destruct (build id name s c) as [o s'].
      specialize (IH s' fs ltac:(cbn in HL; unfold convertible; lia)).
      destruct (issue conv id name s' items fs) as [made l]. cbn [snd] in *. cbn [partition_result].
      destruct (partition_result l) as [rc er]. cbn [fst] in IH.
      destruct f as [|[r|]]; cbn.
      * rewrite IH. split; intros H K; apply H; [inversion K; subst; [discriminate|assumption]|now right].
      * destruct (join_all rc).
        -- split; [intros _ K|discriminate]. apply (proj1 IH); [discriminate|]. inversion K; subst; [discriminate|assumption].
        -- split; [congruence|]. intros H. destruct (proj2 IH); [|reflexivity]. intros K. apply H. now right.
      * split; [congruence|]. intros H. destruct H. now left.
    + specialize (IH s fates ltac:(exact HL)).
      destruct (issue conv id name s items fates) as [made l]. cbn [snd] in *. cbn [partition_result].
      destruct (partition_result l) as [rc er]. exact IH.
Qed.
Lemma many_result {A} (conv : A -> option call) id name s items fates : (length fates = convertible conv items)%nat ->
  (~ Exists pending_fate fates -> snd (many conv id name s items fates) = Some (Ok tt)) /\
  (Exists pending_fate fates -> snd (many conv id name s items fates) = None).
Proof.
  intros HL. pose proof (issue_done conv id name items s fates HL) as H. unfold many.
  destruct (issue conv id name s items fates) as [made l]. cbn [snd] in H. destruct (partition_result l) as [rc er]. cbn [fst snd] in *.
  destruct (join_all rc); (split; intros K; [|]).
  - reflexivity.
  - apply H in K; [destruct K|discriminate].
  - apply H in K. congruence.
  - reflexivity.
Qed.

(** The requests of the items, numbered one after another. *)
Fixpoint numbered_sends (name : bytes) (id n : N) (datas : list bytes) : list outbound :=
  match datas with [] => [] | d :: r => OSend (SSingle name id n d) :: numbered_sends name id (bump n) r end.
Fixpoint numbered_acks (id n : N) (mids : list message) : list outbound :=
  match mids with [] => [] | m :: r => OAck [mk_ack id m n] :: numbered_acks id (bump n) r end.
Fixpoint somes {A} (l : list (option A)) : list A := match l with [] => [] | Some a :: r => a :: somes r | None :: r => somes r end.
(** The requests that were not refused. *)
Fixpoint unrefused {A} (l : list A) (fates : list fate) : list A :=
  match l, fates with
  | x :: r, Refused :: fs => unrefused r fs
  | x :: r, _ :: fs => x :: unrefused r fs
  | l, [] => l
  | [], _ => []
  end.

(** C24: send_all makes one request per serialisable message, in order; it
    finishes when the last of them is settled, and then reports success whatever
    happened: refused, cancelled, answered wrongly, or not serialisable. *)
Theorem C24_send_all : forall T (ser : T -> option bytes) id name s ms fates,
  (length fates = length (somes (map ser ms)))%nat ->
  let (made, result) := send_all ser id name s ms fates in
  made = unrefused (numbered_sends name id (sequence_id s) (somes (map ser ms))) fates /\
  (result = Some (Ok tt) <-> ~ In (Queued None) fates) /\ (result = None <-> In (Queued None) fates).
Proof.
  intros T ser id name s ms fates HL. destruct (send_all ser id name s ms fates) as [made result] eqn:E. split.
  - revert s fates HL made result E. unfold send_all, many. induction ms as [|m ms IH]; intros s fates HL made result E.
    + destruct fates; [|discriminate]. cbn in *. now inversion E.
    + cbn in *. destruct (ser m) as [d|]; cbn in *.
      * destruct fates as [|f fs]; [discriminate|]. cbn in HL. injection HL as HL.
        specialize (IH (mk_counters (request_id s) (bump (sequence_id s))) fs HL).
        destruct (issue _ id name (mk_counters (request_id s) (bump (sequence_id s))) ms fs) as [made' l]. cbn in *.
        destruct (partition_result l) as [rc er]. specialize (IH _ _ eq_refl).
        destruct f; cbn in E; inversion E; subst; reflexivity.
      * specialize (IH s fates HL). destruct (issue _ id name s ms fates) as [made' l]. cbn in *.
        destruct (partition_result l) as [rc er]. specialize (IH _ _ eq_refl). inversion E; subst; reflexivity.
  - assert (HC : (length fates = convertible (fun m => match ser m with Some d => Some (CSend d) | None => None end) ms)%nat).
    { rewrite HL. unfold convertible. clear. induction ms as [|m ms IH]; [reflexivity|]. cbn. destruct (ser m); cbn; lia. }
    destruct (many_result _ id name s ms fates HC) as [H1 H2]. unfold send_all in E. rewrite E in *. cbn in *.
    assert (HX : Exists pending_fate fates <-> In (Queued None) fates).
    { rewrite Exists_exists. unfold pending_fate. split; [intros (x & Hx & ->); exact Hx|eauto]. }
    rewrite HX in *. assert (HD : In (Queued None) fates \/ ~ In (Queued None) fates).
    { clear. induction fates as [|f fs IH]; [now right|]. destruct f as [|[r|]]; [..|left; now left];
        (destruct IH as [IH|IH]; [left; now right|right; intros [H|H]; [discriminate|auto]]). }
    destruct HD as [HD|HD]; [rewrite (H2 HD)|rewrite (H1 HD)]; split; (split; [intros X; first [discriminate|assumption|reflexivity]|intros X; first [reflexivity|tauto]]).
Qed.
(** C24: the same for ack_all. *)
Theorem C24_ack_all : forall id name s mids fates, (length fates = length mids)%nat ->
  let (made, result) := ack_all id name s mids fates in
  made = unrefused (numbered_acks id (request_id s) mids) fates /\
  (result = Some (Ok tt) <-> ~ In (Queued None) fates) /\ (result = None <-> In (Queued None) fates).
Proof.
  intros id name s mids fates HL. destruct (ack_all id name s mids fates) as [made result] eqn:E. split.
  - revert s fates HL made result E. unfold ack_all, many. induction mids as [|m ms IH]; intros s fates HL made result E.
    + destruct fates; [|discriminate]. cbn in *. now inversion E.
    + cbn in *. destruct fates as [|f fs]; [discriminate|]. cbn in HL. injection HL as HL.
      specialize (IH (mk_counters (bump (request_id s)) (sequence_id s)) fs HL).
      destruct (issue _ id name (mk_counters (bump (request_id s)) (sequence_id s)) ms fs) as [made' l]. cbn in *.
      destruct (partition_result l) as [rc er]. specialize (IH _ _ eq_refl).
      destruct f; cbn in E; inversion E; subst; reflexivity.
  - assert (HC : (length fates = convertible (fun mid => Some (CAck mid)) mids)%nat).
    { rewrite HL. unfold convertible. clear. induction mids; cbn in *; congruence. }
    destruct (many_result _ id name s mids fates HC) as [H1 H2]. unfold ack_all in E. rewrite E in *. cbn in *.
    assert (HX : Exists pending_fate fates <-> In (Queued None) fates).
    { rewrite Exists_exists. unfold pending_fate. split; [intros (x & Hx & ->); exact Hx|eauto]. }
    rewrite HX in *. assert (HD : In (Queued None) fates \/ ~ In (Queued None) fates).
    { clear. induction fates as [|f fs IH]; [now right|]. destruct f as [|[r|]]; [..|left; now left];
        (destruct IH as [IH|IH]; [left; now right|right; intros [H|H]; [discriminate|auto]]). }
    destruct HD as [HD|HD]; [rewrite (H2 HD)|rewrite (H1 HD)]; split; (split; [intros X; first [discriminate|assumption|reflexivity]|intros X; first [reflexivity|tauto]]).
Qed.
(** C24: in particular every single message can fail and send_all still succeeds:
    here all requests were refused, and here all were answered by a lost engine. *)
Theorem C24_send_all_hides_failure : forall T (ser : T -> option bytes) id name s ms,
  let n := length (somes (map ser ms)) in
  send_all ser id name s ms (repeat Refused n) = ([], Some (Ok tt)) /\
  snd (send_all ser id name s ms (repeat (Queued (Some Cancelled)) n)) = Some (Ok tt).
Proof.
  intros T ser id name s ms n. split.
  - pose proof (C24_send_all T ser id name s ms (repeat Refused n) (repeat_length _ _)) as H.
    destruct (send_all ser id name s ms (repeat Refused n)) as [made result]. destruct H as (HM & HR & _).
    assert (E : result = Some (Ok tt)) by (apply HR; intros K; apply repeat_spec in K; discriminate). rewrite E. f_equal.
    rewrite HM. unfold n. generalize (sequence_id s). generalize (somes (map ser ms)). intros l. induction l as [|d l IH]; intros q; [reflexivity|apply IH].
  - pose proof (C24_send_all T ser id name s ms (repeat (Queued (Some Cancelled)) n) (repeat_length _ _)) as H.
    destruct (send_all ser id name s ms (repeat (Queued (Some Cancelled)) n)) as [made result]. destruct H as (_ & HR & _).
    apply HR. intros K; apply repeat_spec in K; discriminate.
Qed.

(** * Concrete cases *)
Definition ex_ser (n : nat) : option bytes := if (n =? 7)%nat then None else Some (str "x").
Example ex_C24_send : exec (send ex_ser 4 (str "p") fresh 1%nat) [Resolved (InReceipt 4 0 [])]
    = ([OSend (SSingle (str "p") 4 0 (str "x"))], Some (Ok tt))
  /\ exec (send ex_ser 4 (str "p") fresh 1%nat) [Resolved InPong] = ([OSend (SSingle (str "p") 4 0 (str "x"))], Some (Err Unresolvable)).
Proof. split; reflexivity. Qed.
Example ex_C24_batch : map ex_ser [1; 2]%nat = map Some [str "x"; str "x"] /\ In 7%nat [1; 7]%nat /\ ex_ser 7 = None.
Proof. split; [reflexivity|]. split; [cbn; auto|reflexivity]. Qed.
Example ex_C24_all : length [Refused; Queued (Some Cancelled); Queued None] = length (somes (map ex_ser [1; 7; 2; 3]%nat))
  /\ send_all ex_ser 4 (str "p") fresh [1; 7; 2; 3]%nat [Refused; Queued (Some Cancelled); Queued None]
     = ([OSend (SSingle (str "p") 4 1 (str "x")); OSend (SSingle (str "p") 4 2 (str "x"))], None).
Proof. split; reflexivity. Qed.

Print Assumptions C24_send.
Print Assumptions C24_send_batch.
Print Assumptions C24_ack.
Print Assumptions C24_send_all.
Print Assumptions C24_ack_all.
Print Assumptions C24_send_all_hides_failure.
