(** C87: calls of different kinds made at once are all answered. *)
From Verif Require Import Bytes Errors Wire Proto Codec Address Message SpecCodec SpecMessage Client Producer SpecKeys SpecClient Engine SpecEngine SpecEngine2 EngineFacts EngineInv EngineReq EngineEv EngineConn EngineLog EngineView EngineQueue EngineRoute EngineNet EngineGate EngineLife EngineEx SpecTurn TurnFacts SpecStack SpecAnswered SpecLoop SpecRest SpecEnd SpecBuild SpecAll SpecFinish SpecServe SpecGroup PropMessage PropClient PropProducer PropEngine PropEngine2 PropEngine3 PropTurn PropReceipt PropAnswered PropStart PropLoop PropEnd PropRest PropBuild PropAll PropFinish PropServe.
Open Scope nat_scope.

Fixpoint issues (c n : nat) (os : list outbound) : list obs := match os with [] => [] | o :: r => OIssue c n o :: issues c (S n) r end.
Lemma issues_in c os : forall n x, In x (issues c n os) <-> exists m o, x = OIssue c m o /\ In (m, o) (combine (seq n (length os)) os).
Proof.
  induction os as [|o os IH]; intros n x; cbn [issues length seq combine In].
  - split; [intros []|intros (? & ? & _ & [])].
  - rewrite IH. split.
    + intros [<-|(m & q & -> & X)]; eauto 6.
    + intros (m & q & -> & [X|X]); [injection X as <- <-; auto|right; eauto].
Qed.
Lemma issues_requests c os : forall n, requests c (issues c n os) = os.
Proof. unfold requests. induction os as [|o os IH]; intros n; [reflexivity|]. cbn [issues flat_map]. rewrite Nat.eqb_refl. cbn [app]. now rewrite IH. Qed.
Lemma issues_issued c os : forall n, issued c (issues c n os) = seq n (length os).
Proof. unfold issued. induction os as [|o os IH]; intros n; [reflexivity|]. cbn [issues flat_map length seq]. rewrite Nat.eqb_refl. cbn [app]. now rewrite IH. Qed.
(** Different calls of the group are of different kinds. *)
Lemma distinct_same os : distinct os -> forall n m1 o1 m2 o2, In (m1, o1) (combine (seq n (length os)) os) -> In (m2, o2) (combine (seq n (length os)) os) ->
  waits o1 = true -> kind_of o1 = kind_of o2 -> m1 = m2 /\ o1 = o2.
Proof.
  unfold distinct. induction os as [|o os IH]; intros D n m1 o1 m2 o2 X Y W K; [destruct X|]. cbn [length seq combine In] in X, Y.
  assert (W2 : waits o2 = true) by (unfold waits in *; now rewrite <- K).
  assert (In' : forall m q, In (m, q) (combine (seq (S n) (length os)) os) -> waits q = true -> In (kind_of q) (map kind_of (filter waits os))).
  { intros m q Z Wq. apply in_map, filter_In. split; [exact (in_combine_r _ _ _ _ Z)|exact Wq]. }
  cbn [filter] in D. destruct X as [X|X], Y as [Y|Y].
  - injection X as <- <-. injection Y as <- <-. auto.
  - injection X as <- <-. rewrite W in D. cbn [map] in D. apply NoDup_cons_iff in D as [D _]. elim D. rewrite K. exact (In' _ _ Y W2).
  - injection Y as <- <-. rewrite W2 in D. cbn [map] in D. apply NoDup_cons_iff in D as [D _]. elim D. rewrite <- K. exact (In' _ _ X W).
  - apply (IH) with (n := S n); auto. destruct (waits o); [|exact D]. cbn [map] in D. now apply NoDup_cons_iff in D as [_ D].
Qed.
(** A request made with others when nothing was going on is not dropped for another one. *)
Lemma group_kept E h s l c n0 os d n o : reach E h s -> ~ In OStop (s_log s) -> s_log s = l ++ issues c n0 os ++ d -> (forall b m q, ~ In (OIssue b m q) d) ->
  (forall b m q, In (OIssue b m q) l -> In m (takes l)) -> ~ In n (takes l) -> distinct os -> In (n, o) (combine (seq n0 (length os)) os) -> ~ In (OCancel n) (s_log s).
Proof.
  intros H Ns El Nd Tk Nn Di Hn X. apply in_split in X as (l1 & l2 & Ec).
  destruct (reach_entries E h s H _ _ _ Ec) as [Y|(l0 & m & key & q & -> & Wt & Rm & Aq & Kq)]; [apply Ns; rewrite Ec; apply in_app_iff; now left|].
  destruct (waiting_flight _ _ _ Wt) as (k & o' & (o2 & _ & K2 & X2 & Tn & _) & Ro' & Ko' & Ky').
  pose proof (r_tknd s (v_r E s (reach_all E h s H))) as Td.
  assert (Mn : m <> n).
  { intros ->. rewrite Ec, <- app_assoc, EngineReq.takes_app in Td. cbn [app takes flat_map] in Td. apply NoDup_remove_2 in Td. apply Td, in_app_iff. now left. }
  assert (o' = o) as ->.
  { apply (requested_uniq E h s n _ _ H).
    - rewrite Ec, <- app_assoc. now apply requested_app.
    - exists c. rewrite El. apply in_app_iff. right. apply in_app_iff. left. apply issues_in. eauto. }
  destruct Rm as [b Rm].
  assert (Z : In (OIssue b m q) (s_log s)) by (rewrite Ec; apply in_app_iff; left; apply in_app_iff; now left).
  rewrite El in Z. apply in_app_iff in Z as [Z|Z]; [|apply in_app_iff in Z as [Z|Z]; [|elim (Nd _ _ _ Z)]].
  2:{ apply issues_in in Z as (m' & q' & Eq & Hm). injection Eq as -> <- <-. apply Mn.
      assert (Kk : kind_of q = kind_of o) by (apply C23_key_iff_kind; congruence).
      destruct (asks_kind q Aq) as (kq & Kq1 & Kq2).
      apply (distinct_same os Di n0 m q n o Hm Hn); [unfold waits; now rewrite Kq1|exact Kk]. }
  assert (Mo : In m (takes l)) by exact (Tk b m q Z).
  rewrite El in Ec. rewrite <- !app_assoc in Ec. cbn [app] in Ec.
  destruct (app_eq_app _ _ _ _ Ec) as (r & [[-> Er]|[-> Er]]).
  - apply Nn. rewrite EngineReq.takes_app. apply in_app_iff. now left.
  - rewrite El, Ec, EngineReq.takes_app in Td. change (takes (OTake m :: OCancel n :: l2)) with (m :: takes l2) in Td.
    apply NoDup_remove_2 in Td. apply Td, in_app_iff. left. rewrite EngineReq.takes_app. apply in_app_iff. now left.
Qed.

(** * Making them *)
Lemma make_group E will rank c id : forall os h s, reach E h s -> as_polled E rank h -> unharmed E h -> sensible E (s_log s) -> all_willing will (s_log s) -> ~ In OStop (s_log s) ->
  held c id s -> (forall o, In o os -> reasonable id o) ->
  exists s1, run E s (at_once c os) = Some s1 /\ reach E (h ++ at_once c os) s1 /\ as_polled E rank (h ++ at_once c os) /\ unharmed E (h ++ at_once c os) /\ sensible E (s_log s1) /\ all_willing will (s_log s1) /\
    held c id s1 /\ s_log s1 = s_log s ++ issues c (s_nreq s) os.
Proof.
  induction os as [|o os IH]; intros h s H Po U Se Aw Up Hd Re.
  - exists s. cbn [at_once map run issues]. rewrite !app_nil_r. auto 10.
  - destruct Hd as (Rg & C1 & C2). pose proof (reach_all E h s H) as I. pose proof (v_h E s I) as Hi. pose proof Rg as Rg0.
    destruct (Re o (or_introl eq_refl)) as (Ap & Ro & Rw).
    rewrite (g_reg s (reach_gate E h s H)) in Rg. unfold pairs in Rg.
    assert (Ci : ch_id (s_ch s c) = id) by exact (h_cid s Hi c id Rg).
    assert (Ce : ch_engine (s_ch s c) = true).
    { apply (h_engine s Hi). left. split; [|intros X; apply Up, (i_stop s (v_s E s I)); exact X].
      apply in_map_iff in Rg as (x & Ex & Hx). injection Ex as <- _. now apply in_map. }
    set (s1 := say (upd_ch (with_counts s (S (s_nreq s)) (s_narr s)) c (ch_push_up (s_nreq s, o))) [OIssue c (s_nreq s) o]).
    assert (S1 : step E s (EvIssue c o) = Some s1) by (cbn [step]; rewrite C1, C2, Ci, Ap, Ce; reflexivity).
    assert (H1 : reach E (h ++ [EvIssue c o]) s1) by (apply (reach_app E h s [_] s1 H); cbn [run]; now rewrite S1).
    assert (L1 : s_log s1 = s_log s ++ [OIssue c (s_nreq s) o]) by reflexivity.
    pose proof (step_trans _ _ _ _ (reach_wf E h s H) S1) as T.
    destruct (trans_client E s _ s1 c Hi T C1 C2 ltac:(discriminate)) as [D1 D2].
    destruct (IH (h ++ [EvIssue c o]) s1 H1) as (s2 & R2 & H2 & Po2 & U2 & Se2 & Aw2 & Hd2 & L2).
    + exact (polled_snoc E rank h (EvIssue c o) s Po H Logic.I).
    + apply (unharmed_snoc E h s _ H U).
      * exact (fun x => x).
      * intros b x Y. discriminate Y.
      * intros b [Y|[Y|[(mc' & Y & Z)|(now & io & q & r & rest & Y & _)]]]; discriminate Y.
    + destruct Se as (A & B & C). rewrite L1. split; [|split; [exact B|]].
      * intros b m q X. apply in_app_iff in X as [X|[X|[]]]; [exact (A b m q X)|]. injection X as <- <- <-. auto.
      * intros x [X|[m X]]; apply C; [now left|]. right. exists m. apply in_app_iff in X as [X|[X|[]]]; [exact X|discriminate X].
    + rewrite L1. intros a ser i X. apply in_app_iff in X as [X|[X|[]]]; [exact (Aw a ser i X)|discriminate X].
    + rewrite L1. intros X. apply in_app_iff in X as [X|[X|[]]]; [exact (Up X)|discriminate X].
    + split; [|auto]. rewrite L1. unfold registered. rewrite flat_map_app. apply in_app_iff. now left.
    + intros q X. apply Re. now right.
    + assert (Eh : h ++ at_once c (o :: os) = (h ++ [EvIssue c o]) ++ at_once c os) by (rewrite <- app_assoc; reflexivity). rewrite Eh.
      exists s2. split; [cbn [at_once map run]; rewrite S1; exact R2|]. repeat (split; [assumption|]). rewrite L2, L1, <- app_assoc. reflexivity.
Qed.
(** As long as nothing has failed: there is a continuation with a moment at which a client
    makes any calls at once, no two of them that wait being of the same kind, after which
    each of them that waits has completed with an answer of its own kind, and everything
    is again as it was to begin with. *)
Theorem C87_calls_at_once : forall E will rank h s c id os, some_answer will -> reach E h s -> as_polled E rank h -> unharmed E h -> sensible E (s_log s) -> all_willing will (s_log s) ->
  held c id s -> (forall o, In o os -> reasonable id o) -> distinct os ->
  exists h1 s1 s2 h3 s3, helped E will s h1 s1 /\ run E s1 (at_once c os) = Some s2 /\ helped E will s2 h3 s3 /\ let h' := h ++ h1 ++ at_once c os ++ h3 in
    reach E h' s3 /\ as_polled E rank h' /\ at_rest E rank h' s3 /\ unharmed E h' /\ sensible E (s_log s3) /\ all_willing will (s_log s3) /\ held c id s3 /\
    requests c (s_log s3) = requests c (s_log s) ++ os /\
    exists ns, issued c (s_log s3) = issued c (s_log s) ++ ns /\ Forall2 (fun n o => In (OIssue c n o) (s_log s3) /\ (waits o = true -> well_answered will (s_log s3) n o)) ns os.
Proof.
  intros E will rank h s c id os Wi H Po U Se Aw (Rg & C1 & C2) Re Di.
  destruct (to_calm E will rank h s c Wi H Po U Se Aw C1 C2) as (h1 & s1 & R1 & Ca1 & (d1 & L1 & N1) & D1 & D2).
  assert (Hd1 : held c id s1) by (split; [rewrite L1; unfold registered; rewrite flat_map_app; apply in_app_iff; now left|auto]).
  destruct (make_group E will rank c id os (h ++ h1) s1 (ca_reach _ _ _ _ _ Ca1) (ca_polled _ _ _ _ _ Ca1) (ca_unharmed _ _ _ _ _ Ca1) (ca_sensible _ _ _ _ _ Ca1) (ca_will _ _ _ _ _ Ca1) (ca_up _ _ _ _ _ Ca1) Hd1 Re)
    as (s2 & R2 & H2 & Po2 & U2 & Se2 & Aw2 & (Rg2 & E1 & E2) & L2).
  destruct (to_calm E will rank ((h ++ h1) ++ at_once c os) s2 c Wi H2 Po2 U2 Se2 Aw2 E1 E2) as (h3 & s3 & R3 & Ca3 & (d3 & L3 & N3) & F1 & F2).
  exists h1, s1, s2, h3, s3. split; [exact R1|]. split; [exact R2|]. split; [exact R3|]. rewrite <- !app_assoc in Ca3. intros h'. subst h'.
  assert (Rq : forall d, (forall b n o, ~ In (OIssue b n o) d) -> requests c d = [] /\ issued c d = []).
  { intros d N. destruct (no_issue_picks c d N) as [A B]. split; [exact B|]. rewrite <- picks_all, A. reflexivity. }
  destruct (Rq d1 N1) as [Q1 I1]. destruct (Rq d3 N3) as [Q3 I3].
  pose proof Ca3 as Ca. destruct Ca3 as [H3 Po3 U3 Se3 Aw3 Re3 Up3 Tk3 Dn3]. repeat (split; [assumption|]).
  split; [split; [rewrite L3; unfold registered; rewrite flat_map_app; apply in_app_iff; now left|auto]|].
  split; [rewrite L3, L2, L1, !requests_app, Q1, Q3, issues_requests, !app_nil_r; reflexivity|].
  exists (seq (s_nreq s1) (length os)). split.
  { assert (Ia : forall u v, issued c (u ++ v) = issued c u ++ issued c v) by (intros; apply flat_map_app).
    rewrite L3, L2, L1, !Ia, I1, I3, issues_issued, !app_nil_r. reflexivity. }
  assert (Lg : s_log s3 = s_log s1 ++ issues c (s_nreq s1) os ++ d3) by now rewrite L3, L2, <- app_assoc.
  assert (G : forall n o, In (n, o) (combine (seq (s_nreq s1) (length os)) os) -> In (OIssue c n o) (s_log s3) /\ (waits o = true -> well_answered will (s_log s3) n o)).
  { intros n o X. assert (Is : In (OIssue c n o) (s_log s3)) by (rewrite Lg; apply in_app_iff; right; apply in_app_iff; left; apply issues_in; eauto).
    split; [exact Is|]. intros W.
    pose proof (proj1 (outcome_settled _ _) (Dn3 c n o Is W)) as O. unfold well_answered. destruct (outcome_of n (s_log s3)) as [r|] eqn:Or; [|congruence].
    assert (Nt : ~ In n (takes (s_log s1))).
    { intros Y. unfold takes in Y. apply in_flat_map in Y as (x & Hx & Y). destruct x; try (destruct Y; fail). destruct Y as [->|[]].
      pose proof (ca_reach _ _ _ _ _ Ca1) as Hr. apply in_split in Hx as (l1 & l2 & El). destruct (reach_entries E _ s1 Hr _ _ _ El) as (_ & (q & b & Y) & _).
      assert (Z : In (OIssue b n q) (s_log s1)) by (rewrite El; apply in_app_iff; now left). pose proof (r_lt s1 (v_r E s1 (reach_all E _ s1 Hr)) b n q Z).
      apply in_combine_l, in_seq in X. lia. }
    destruct (outcome_in _ _ _ Or) as [(ser & j & -> & A)|[-> A]].
    2:{ elim (group_kept E _ s3 (s_log s1) c (s_nreq s1) os d3 n o H3 Up3 Lg N3 (ca_taken _ _ _ _ _ Ca1) Nt Di X A). }
    apply in_split in A as (l1 & l2 & El).
    destruct (C34_answer_of_its_kind E _ s3 _ _ _ _ _ H3 El) as (l0 & a & i & k & -> & Ar & Sn & (q & Rk & K & _) & An).
    assert (q = o) as -> by (apply (requested_uniq E _ s3 n _ _ H3); [rewrite El, <- app_assoc; now apply requested_app|now exists c]).
    exists k, a, i, j. split; [exact K|]. split; [|auto]. apply (Aw3 a ser i). rewrite El, <- app_assoc. apply in_app_iff. now left. }
  clear - G. revert G. generalize (s_nreq s1). induction os as [|o os IH]; intros n G; [constructor|]. cbn [length seq]. constructor.
  - apply G. cbn [length seq combine]. now left.
  - apply IH. intros m q X. apply G. cbn [length seq combine]. now right.
Qed.
Print Assumptions C87_calls_at_once.

(** * send_all *)
Lemma sends_waiting name id ds : forall q, filter waits (sends_from name id q ds) = sends_from name id q ds.
Proof. induction ds as [|d ds IH]; intros q; [reflexivity|]. cbn [sends_from filter]. change (waits (OSend (SSingle name id q d))) with true. cbn iota. now rewrite IH. Qed.
Lemma sends_kinds name id ds : forall q x, (q < 2 ^ 64)%N -> In x (map kind_of (sends_from name id q ds)) -> exists i, (i < length ds) /\ x = Some (KSend ((q + N.of_nat i) mod 2 ^ 64)).
Proof.
  induction ds as [|d ds IH]; intros q x Q X; [destruct X|]. cbn [sends_from map kind_of] in X. destruct X as [<-|X].
  - exists 0. cbn [length N.of_nat]. rewrite N.add_0_r, N.mod_small by exact Q. split; [lia|reflexivity].
  - destruct (IH _ x ltac:(apply N.mod_lt; discriminate) X) as (i & Li & ->). exists (S i). cbn [length]. split; [lia|]. do 2 f_equal.
    rewrite N.add_mod_idemp_l by discriminate. f_equal. lia.
Qed.
Lemma sends_distinct name id ds q : (q < 2 ^ 64)%N -> (N.of_nat (length ds) <= 2 ^ 64)%N -> distinct (sends_from name id q ds).
Proof.
  intros Q L. unfold distinct. rewrite sends_waiting. revert q Q L. induction ds as [|d ds IH]; intros q Q L; [constructor|]. cbn [sends_from map kind_of]. constructor.
  - intros X. destruct (sends_kinds name id ds _ _ ltac:(apply N.mod_lt; discriminate) X) as (i & Li & E). injection E as E.
    rewrite N.add_mod_idemp_l in E by discriminate. cbn [length] in L.
    assert (Cs : (q + 1 + N.of_nat i < 2 ^ 64)%N \/ (2 ^ 64 <= q + 1 + N.of_nat i)%N) by lia.
    destruct Cs as [Cs|Cs]; [rewrite N.mod_small in E by exact Cs; lia|].
    replace (q + 1 + N.of_nat i)%N with ((q + 1 + N.of_nat i - 2 ^ 64) + 1 * 2 ^ 64)%N in E by lia. rewrite N.mod_add in E by discriminate. rewrite N.mod_small in E by lia. lia.
  - apply IH; [apply N.mod_lt; discriminate|]. cbn [length] in L. lia.
Qed.
Lemma sends_reasonable name id ds : (id < 2 ^ 64)%N -> string_ok name -> (blen name < 2 ^ 28)%N -> (forall d, In d ds -> blen d < 2 ^ 28)%N ->
  forall q, (q < 2 ^ 64)%N -> forall o, In o (sends_from name id q ds) -> reasonable id o /\ waits o = true.
Proof.
  intros Hi So Sl. induction ds as [|d ds IH]; intros Hd q Q o X; [destruct X|]. cbn [sends_from] in X. destruct X as [<-|X].
  - pose proof (Hd d (or_introl eq_refl)). split; [|reflexivity]. split; [cbn; apply N.eqb_refl|]. cbn [req_ok req_weight]. repeat split; auto. lia.
  - apply (IH ltac:(intros y Y; apply Hd; now right) ((q + 1) mod 2 ^ 64)%N); [apply N.mod_lt; discriminate|exact X].
Qed.
Lemma part_suffix {A} (a b : list A) : part b (a ++ b).
Proof. induction a as [|x a IH]; cbn [app]; [induction b as [|y b IH]; constructor; exact IH|constructor; exact IH]. Qed.
(** In particular send_all, of any number of messages (up to 2^64): it returns, and every
    message that could be serialised has got the receipt with its own sequence number -
    which send_all itself does not look at. *)
Theorem C87_send_all : forall T (ser : T -> option bytes) E will rank h s c id name cs ms, some_answer will -> reach E h s -> as_polled E rank h -> unharmed E h -> sensible E (s_log s) -> all_willing will (s_log s) ->
  held c id s -> (id < 2 ^ 64)%N -> string_ok name -> (blen name < 2 ^ 28)%N -> (sequence_id cs < 2 ^ 64)%N ->
  let ds := serialised ser ms in let os := sends_from name id (sequence_id cs) ds in
  (N.of_nat (length ds) <= 2 ^ 64)%N -> (forall d, In d ds -> blen d < 2 ^ 28)%N ->
  exists h1 s1 s2 h3 s3 ns, helped E will s h1 s1 /\ run E s1 (at_once c os) = Some s2 /\ helped E will s2 h3 s3 /\ reach E (h ++ h1 ++ at_once c os ++ h3) s3 /\
    made_as c (s_log s3) ns os /\ snd (Producer.send_all ser id name cs ms (fates (s_log s3) ns)) = Some (Ok tt) /\
    Forall2 (fun n o => forall seq, kind_of o = Some (KSend seq) -> exists pid mid, outcome_of n (s_log s3) = Some (Resolved (InReceipt pid seq mid))) ns os.
Proof.
  intros T ser E will rank h s c id name cs ms Wi H Po U Se Aw Hd Hi So Sl Hq ds os Ln Hs.
  destruct (C87_calls_at_once E will rank h s c id os Wi H Po U Se Aw Hd) as (h1 & s1 & s2 & h3 & s3 & R1 & R2 & R3 & H3 & _ & _ & _ & _ & _ & _ & _ & ns & In3 & Fa).
  - intros o X. exact (proj1 (sends_reasonable name id ds Hi So Sl Hs _ Hq o X)).
  - apply sends_distinct; assumption.
  - assert (Fw : Forall2 (fun n o => In (OIssue c n o) (s_log s3) /\ well_answered will (s_log s3) n o) ns os).
    { assert (W : forall o, In o os -> waits o = true) by (intros o X; exact (proj2 (sends_reasonable name id ds Hi So Sl Hs _ Hq o X))).
      clear - Fa W. induction Fa as [|n o ns os [A B] F IH]; constructor; [split; [exact A|apply B, W; now left]|apply IH; intros q X; apply W; now right]. }
    exists h1, s1, s2, h3, s3, ns. repeat (split; [assumption|]). split; [|split].
    + split; [rewrite In3; apply part_suffix|]. clear - Fw. induction Fw as [|n o ns os [A B] F IH]; constructor; auto.
    + pose proof (C24_send_all T ser id name cs ms (fates (s_log s3) ns)) as Y.
      assert (L : length (fates (s_log s3) ns) = length (somes (map ser ms))).
      { unfold fates. rewrite map_length, (Forall2_len _ _ _ Fw). unfold os. rewrite sends_length. unfold ds. now rewrite serialised_somes. }
      specialize (Y L). destruct (Producer.send_all ser id name cs ms (fates (s_log s3) ns)) as [m r]. destruct Y as (_ & Y & _). cbn [snd]. apply Y.
      apply all_came. intros n Hn. apply outcome_settled. clear - Fw Hn. induction Fw as [|m o ns os [A (k & a & i & j & _ & _ & _ & _ & B)] F IH]; [destruct Hn|]. destruct Hn as [<-|Hn]; [congruence|auto].
    + clear - Fw. induction Fw as [|n o ns os [A (k & a & i & j & K & _ & _ & An & O)] F IH]; constructor; [|exact IH]. intros seq Kq.
      assert (k = KSend seq) as -> by congruence. destruct j; cbn [answers] in An; try contradiction. subst. eauto.
Qed.
Print Assumptions C87_send_all.

(** * A concrete case *)
(** The client of C86_meets makes four calls at once: two sends, an acknowledgement and a
    flow; two acknowledgements at once are not of different kinds. *)
Example C87_meets : exists s, reach xE d_events s /\ (forall rank, as_polled xE rank d_events) /\ unharmed xE d_events /\ sensible xE (s_log s) /\ all_willing found_topic (s_log s) /\
  held 2 2%N s /\ ~ all_answered (s_log s) /\
  let os := [OSend (SSingle (str "p") 2 7 (str "x")); OFlow 2 5; OSend (SSingle (str "p") 2 8 (str "y")); x_ack 2]%N in
  (forall o, In o os -> reasonable 2 o) /\ distinct os /\ ~ distinct [x_ack 2; x_ack 2].
Proof.
  destruct C86_meets as (s & A & B & C & D & F & (G1 & G2 & G3 & _) & K & _). exists s. repeat (split; [assumption|]). split; [split; auto|]. split; [exact K|].
  cbn zeta. split; [|split].
  - intros o X. cbn [In] in X. repeat (destruct X as [<-|X]; [split; [vm_compute; reflexivity|]; cbn [req_ok]; unfold opt_ok, string_ok, u64, u32, mid_ok; repeat (first [apply Forall_cons|apply Forall_nil|split]); vm_compute; reflexivity|]). destruct X.
  - unfold distinct. cbn. repeat constructor; cbn; intuition discriminate.
  - unfold distinct. cbn. intros N. apply NoDup_cons_iff in N as [N _]. apply N. now left.
Qed.
