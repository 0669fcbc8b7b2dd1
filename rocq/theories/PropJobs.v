(** C89: as long as nothing has failed, all programs under way can be run to their ends. *)
From Verif Require Import Bytes Errors Wire Proto Codec Address Message SpecCodec SpecMessage Client SpecKeys SpecClient Engine SpecEngine SpecEngine2 EngineFacts EngineInv EngineReq EngineEv EngineConn EngineLog EngineView EngineQueue EngineRoute EngineNet EngineGate EngineLife EngineEx SpecTurn TurnFacts SpecStack SpecAnswered SpecLoop SpecRest SpecEnd SpecBuild SpecFinish SpecServe SpecGroup SpecJobs PropMessage PropClient PropEngine PropEngine2 PropEngine3 PropTurn PropReceipt PropAnswered PropStart PropLoop PropEnd PropRest PropBuild PropFinish PropServe.
Open Scope nat_scope.

(** * Programs on more replies *)
Lemma replies_longer l m ps : exists t, replies_to (l ++ m) ps = replies_to l ps ++ t.
Proof.
  induction ps as [|[n o] ps [t IH]]; [now exists []|]. cbn [replies_to]. destruct (waits o); [|exists t; now rewrite IH].
  destruct (outcome_of n l) as [x|] eqn:O; [rewrite (outcome_app n l m x O), IH; now exists t|]. cbn [app]. eauto.
Qed.
Lemma replies_queued l ps : ~ In NotQueued (replies_to l ps).
Proof.
  induction ps as [|[n o] ps IH]; [intros []|]. cbn [replies_to]. destruct (waits o).
  - destruct (outcome_of n l) as [x|] eqn:O; [|intros []]. intros [->|X]; [|exact (IH X)].
    destruct (outcome_in _ _ _ O) as [(ser & i & X & _)|[X _]]; discriminate X.
  - intros [X|X]; [discriminate X|exact (IH X)].
Qed.
Lemma exec_ask o k r rs : r <> NotQueued -> exec (Ask o k) (r :: rs) = (o :: fst (exec (k (ask_result o r)) rs), snd (exec (k (ask_result o r)) rs)).
Proof. intros N. cbn [exec]. destruct r; [| |now elim N]; destruct (exec _ _); reflexivity. Qed.
Lemma exec_post o k r rs : r <> NotQueued -> exec (Post o k) (r :: rs) = (o :: fst (exec (k (Ok tt)) rs), snd (exec (k (Ok tt)) rs)).
Proof. intros N. cbn [exec]. destruct r; [| |now elim N]; cbn [post_result]; destruct (exec _ _); reflexivity. Qed.
Lemma reply_cases r : r = NotQueued \/ r <> NotQueued. Proof. destruct r; [right|right|left]; try discriminate; reflexivity. Qed.
Lemma initial_cons {A} (x : A) a b : initial a b -> initial (x :: a) (x :: b).
Proof. intros [u ->]. now exists u. Qed.
Lemma exec_longer p : forall rs t, ~ In NotQueued t -> initial (fst (exec p rs)) (fst (exec p (rs ++ t))).
Proof.
  induction p as [r|o k IH|o k IH]; intros rs t N; [exists []; reflexivity| |].
  - destruct rs as [|x rs].
    + destruct t as [|y t]; [exists []; reflexivity|]. cbn [app]. rewrite exec_ask by (intros ->; apply N; now left). eexists. reflexivity.
    + cbn [app]. destruct (reply_cases x) as [->|X]; [exact (IH _ rs t N)|]. rewrite !exec_ask by exact X. cbn [fst]. apply initial_cons, IH, N.
  - destruct rs as [|x rs].
    + destruct t as [|y t]; [exists []; reflexivity|]. cbn [app]. rewrite exec_post by (intros ->; apply N; now left). eexists. reflexivity.
    + cbn [app]. destruct (reply_cases x) as [->|X]; [exact (IH _ rs t N)|]. rewrite !exec_post by exact X. cbn [fst]. apply initial_cons, IH, N.
Qed.
(** What is left of a program when all its requests so far have completed. *)
Lemma residual id will l ps : (forall n o, In (n, o) ps -> waits o = true -> exists r, outcome_of n l = Some r /\ may_get will o r) ->
  forall p, modest id will p -> initial (map snd ps) (fst (exec p (replies_to l ps))) ->
  exists q, so_far p (replies_to l ps) (map snd ps) q /\ modest id will q.
Proof.
  induction ps as [|[n o] ps IH]; intros G p T I; [exists p; split; [apply so_far_start|exact T]|].
  assert (G' : forall m q, In (m, q) ps -> waits q = true -> exists r, outcome_of m l = Some r /\ may_get will q r) by (intros m q X; apply (G m q); now right).
  specialize (IH G'). cbn [replies_to map snd] in *. destruct p as [r|o' k|o' k]; cbn [modest] in T.
  - destruct I as [u I]. cbn [exec fst app] in I. discriminate I.
  - destruct T as (Re & W & T). destruct (waits o) eqn:Wo.
    + destruct (G n o (or_introl eq_refl) Wo) as (r & O & Mg). rewrite O in *.
      assert (Nq : r <> NotQueued) by (destruct Mg as [->|(a & i & j & kd & _ & _ & _ & _ & ->)]; discriminate).
      rewrite (exec_ask o' k r _ Nq) in I. destruct I as [u I]. cbn [fst app] in I. injection I as -> I.
      destruct (IH (k (ask_result o r)) (T r Mg) (ex_intro _ u I)) as (q & Sq & Tq). exists q. split; [|exact Tq].
      intros t. cbn [app exec]. rewrite Sq. destruct r; [| |now elim Nq]; reflexivity.
    + exfalso. rewrite exec_ask in I by discriminate. destruct I as [u I]. cbn [fst app] in I. injection I as -> _. congruence.
  - destruct T as (Re & W & T). destruct (waits o) eqn:Wo.
    + exfalso. destruct (G n o (or_introl eq_refl) Wo) as (r & O & Mg). rewrite O in *.
      assert (Nq : r <> NotQueued) by (destruct Mg as [->|(a & i & j & kd & _ & _ & _ & _ & ->)]; discriminate).
      rewrite exec_post in I by exact Nq. destruct I as [u I]. cbn [fst app] in I. injection I as -> _. congruence.
    + rewrite exec_post in I by discriminate. destruct I as [u I]. cbn [fst app] in I. injection I as -> I.
      destruct (IH (k (Ok tt)) T (ex_intro _ u I)) as (q & Sq & Tq). exists q. split; [|exact Tq].
      intros t. cbn [app exec post_result]. rewrite Sq. reflexivity.
Qed.
Lemma modest_yields id will p : modest id will p -> yields id will p (fun _ => True).
Proof.
  induction p as [r|o k IH|o k IH]; cbn [modest yields]; [auto| |]; intros (A & B & C); split; auto; split; auto.
  intros a i j kd X1 X2 X3 X4. apply IH, C. right. exists a, i, j, kd. auto.
Qed.

(** * Several clients *)
Lemma served_adds E will c p s h2 s2 : served E will c p s h2 s2 -> forall h, reach E h s ->
  (exists d, s_log s2 = s_log s ++ d /\ forall b n o, b <> c -> ~ In (OIssue b n o) d) /\ forall b id, held b id s -> held b id s2.
Proof.
  assert (Step : forall h s e s1, reach E h s -> step E s e = Some s1 -> (forall b, e <> EvDropClient b) -> (forall b o, e = EvIssue b o -> b = c) ->
    reach E (h ++ [e]) s1 /\ (exists l, s_log s1 = s_log s ++ l /\ forall b n o, b <> c -> ~ In (OIssue b n o) l) /\ forall b id, held b id s -> held b id s1).
  { intros h s0 e s1 H S Nd Ic. pose proof (step_trans _ _ _ _ (reach_wf E h s0 H) S) as T. destruct (EngineLife.trans_issue E s0 e s1 T) as (l & Ll & Nl).
    split; [apply (reach_app E h s0 [e] s1 H); cbn [run]; now rewrite S|]. split.
    - exists l. split; [exact Ll|]. intros b n o Nb X. destruct (Nl b n o X) as (Y & _). exact (Nb (Ic b o Y)).
    - intros b id (Rg & C1 & C2). destruct (trans_client E s0 e s1 b (v_h E s0 (reach_all E h s0 H)) T C1 C2 (Nd b)) as [D1 D2].
      split; [rewrite Ll; unfold registered; rewrite flat_map_app; apply in_app_iff; now left|auto]. }
  assert (Join : forall h s e s1 s3, reach E h s -> step E s e = Some s1 -> (forall b, e <> EvDropClient b) -> (forall b o, e = EvIssue b o -> b = c) ->
    (forall h, reach E h s1 -> (exists d, s_log s3 = s_log s1 ++ d /\ forall b n o, b <> c -> ~ In (OIssue b n o) d) /\ forall b id, held b id s1 -> held b id s3) ->
    (exists d, s_log s3 = s_log s ++ d /\ forall b n o, b <> c -> ~ In (OIssue b n o) d) /\ forall b id, held b id s -> held b id s3).
  { intros h s0 e s1 s3 H S Nd Ic IH. destruct (Step h s0 e s1 H S Nd Ic) as (H1 & (l & Ll & Nl) & K). destruct (IH _ H1) as [(d & Ld & N) K'].
    split; [|intros b id X; exact (K' b id (K b id X))]. exists (l ++ d). split; [now rewrite Ld, Ll, app_assoc|].
    intros b n o Nb X. apply in_app_iff in X as [X|X]; [exact (Nl b n o Nb X)|exact (N b n o Nb X)]. }
  induction 1 as [s|s e s1 h2 s2 W S _ IH|s a mc i s1 h2 s2 Sd To Wl Ow S _ IH|s o s1 h2 s2 Ex S _ IH]; intros h H.
  - split; [exists []; rewrite app_nil_r; split; [reflexivity|intros ? ? ? ? []]|auto].
  - apply (Join h s e s1 s2 H S); [intros b ->; exact W|intros b o ->; destruct W|exact IH].
  - apply (Join h s _ s1 s2 H S); [discriminate|discriminate|exact IH].
  - apply (Join h s _ s1 s2 H S); [discriminate|intros b q [= <- _]; reflexivity|exact IH].
Qed.
Lemma served_worked E will jobs c id p s h s2 : In (c, id, p) jobs -> served E will c p s h s2 -> worked E will jobs s h s2.
Proof. intros J. induction 1; [constructor|eapply worked_task; eauto|eapply worked_answer; eauto|eapply worked_call; eauto]. Qed.
Lemma helped_worked E will jobs s h s2 : helped E will s h s2 -> worked E will jobs s h s2.
Proof. induction 1; [constructor|eapply worked_task; eauto|eapply worked_answer; eauto]. Qed.
Lemma worked_app E will jobs s h s1 h2 s2 : worked E will jobs s h s1 -> worked E will jobs s1 h2 s2 -> worked E will jobs s (h ++ h2) s2.
Proof. intros A B. induction A; cbn [app]; [exact B|eapply worked_task; eauto|eapply worked_answer; eauto|eapply worked_call; eauto]. Qed.
Lemma not_issued b d : (forall n o, ~ In (OIssue b n o) d) -> picks b (fun _ => true) d = [] /\ requests b d = [].
Proof.
  induction d as [|x d IH]; intros N; [split; reflexivity|]. destruct IH as [A B]; [intros n o X; apply (N n o); now right|].
  unfold picks, requests in *. cbn [flat_map]. rewrite A, B. destruct x; try (split; reflexivity).
  destruct (Nat.eqb_spec h b) as [->|]; [elim (N n o); now left|split; reflexivity].
Qed.
(** What the other clients have is as before, if all of it had completed. *)
Lemma others_same E will rank h s l2 d b : calm E will rank h s -> l2 = s_log s ++ d -> (forall n o, ~ In (OIssue b n o) d) ->
  requests b l2 = requests b (s_log s) /\ replies b l2 = replies b (s_log s).
Proof.
  intros Ca -> N. destruct (not_issued b d N) as [P R]. split; [rewrite requests_app, R; apply app_nil_r|].
  unfold replies. rewrite picks_app, P. rewrite replies_more; [cbn [replies_to]; apply app_nil_r|].
  intros n o X W. apply picks_in in X as [X _]. exact (ca_done _ _ _ _ _ Ca b n o X W).
Qed.
Lemma gets_willing E will rank h s c n o : calm E will rank h s -> In (OIssue c n o) (s_log s) -> waits o = true ->
  exists r, outcome_of n (s_log s) = Some r /\ may_get will o r.
Proof.
  intros Ca Is W. pose proof (proj1 (outcome_settled _ _) (ca_done _ _ _ _ _ Ca c n o Is W)) as O.
  destruct (outcome_of n (s_log s)) as [r|] eqn:Or; [|congruence]. exists r. split; [reflexivity|].
  destruct (outcome_in _ _ _ Or) as [(ser & j & -> & A)|[-> A]]; [|now left]. right. pose proof (ca_reach _ _ _ _ _ Ca) as H.
  apply in_split in A as (l1 & l2 & El).
  destruct (C34_answer_of_its_kind E _ s _ _ _ _ _ H El) as (l0 & a & i & k & -> & Ar & Sn & (q & Rk & K & _) & An).
  assert (q = o) as -> by (apply (requested_uniq E _ s n _ _ H); [rewrite El, <- app_assoc; now apply requested_app|now exists c]).
  exists a, i, j, k. split; [exact K|]. split; [|auto]. apply (ca_will _ _ _ _ _ Ca a ser i). rewrite El, <- app_assoc. apply in_app_iff. now left.
Qed.

Lemma drive_all E will rank jobs : some_answer will -> forall todo, incl todo jobs -> one_each todo -> forall h s, calm E will rank h s ->
  (forall c id p, In (c, id, p) todo -> held c id s /\ exists q, so_far p (replies c (s_log s)) (requests c (s_log s)) q /\ modest id will q) ->
  exists h2 s2, worked E will jobs s h2 s2 /\ calm E will rank (h ++ h2) s2 /\
    (exists d, s_log s2 = s_log s ++ d /\ forall b n o, ~ In b (map (fun x => fst (fst x)) todo) -> ~ In (OIssue b n o) d) /\
    (forall c id p, In (c, id, p) todo -> running c p (s_log s2) /\ exists x, snd (exec p (replies c (s_log s2))) = Some x).
Proof.
  intros Wi. induction todo as [|[[c id] p] todo IH]; intros Inc Oe h s Ca Js.
  - exists [], s. rewrite app_nil_r. split; [constructor|]. split; [exact Ca|]. split; [exists []; rewrite app_nil_r; split; [reflexivity|intros ? ? ? _ []]|intros ? ? ? []].
  - unfold one_each in Oe. cbn [map fst] in Oe. apply NoDup_cons_iff in Oe as [Nc Oe].
    destruct (Js c id p (or_introl eq_refl)) as ((Rg & C1 & C2) & q & Sq & Tq).
    destruct (drive E will rank c id p (fun _ => True) Wi q h s Ca Rg C1 C2 Sq (modest_yields id will q Tq)) as (h1 & s1 & R1 & Ca1 & Ru & x & Ex & _).
    destruct (served_adds E will c p s h1 s1 R1 h (ca_reach _ _ _ _ _ Ca)) as [(d & Ld & Nd) Kh].
    destruct (IH ltac:(intros y Y; apply Inc; now right) Oe (h ++ h1) s1 Ca1) as (h2 & s2 & R2 & Ca2 & (d2 & Ld2 & Nd2) & Fi).
    + intros b jd r X. destruct (Js b jd r (or_intror X)) as (Hb & q' & Sq' & Tq'). split; [exact (Kh b jd Hb)|]. exists q'. split; [|exact Tq'].
      assert (Nb : b <> c) by (intros ->; apply Nc; apply in_map_iff; exists (c, jd, r); auto).
      destruct (others_same E will rank h s (s_log s1) d b Ca Ld) as [-> ->]; [intros n o; exact (Nd b n o Nb)|exact Sq'].
    + exists (h1 ++ h2), s2. split; [eapply worked_app; [eapply served_worked; [apply Inc; now left|exact R1]|exact R2]|]. split; [now rewrite app_assoc|]. split.
      * exists (d ++ d2). split; [now rewrite Ld2, Ld, app_assoc|]. intros b n o Nb X. cbn [map fst] in Nb. apply in_app_iff in X as [X|X].
        -- apply (Nd b n o) in X; [exact X|]. intros ->. apply Nb. now left.
        -- apply (Nd2 b n o) in X; [exact X|]. intros Y. apply Nb. now right.
      * intros b jd r [X|X]; [|exact (Fi b jd r X)]. injection X as <- <- <-.
        destruct (others_same E will rank (h ++ h1) s1 (s_log s2) d2 c Ca1 Ld2) as [Eq Er]; [intros n o; exact (Nd2 c n o Nc)|].
        unfold running. rewrite Eq, Er. split; [exact Ru|]. now exists x.
Qed.

(** As long as nothing has failed: whatever programs any clients are running, each at any
    point, they can all be run to their ends. *)
Theorem C89_all_programs_can_end : forall E will rank h s jobs, some_answer will -> reach E h s -> as_polled E rank h -> unharmed E h -> sensible E (s_log s) -> all_willing will (s_log s) ->
  one_each jobs -> (forall c id p, In (c, id, p) jobs -> held c id s /\ modest id will p /\ partway c p (s_log s)) ->
  exists h2 s2, worked E will jobs s h2 s2 /\ reach E (h ++ h2) s2 /\ as_polled E rank (h ++ h2) /\ at_rest E rank (h ++ h2) s2 /\ unharmed E (h ++ h2) /\ ~ In OStop (s_log s2) /\
    forall c id p, In (c, id, p) jobs -> running c p (s_log s2) /\ exists x, snd (exec p (replies c (s_log s2))) = Some x.
Proof.
  intros E will rank h s jobs Wi H Po U Se Aw Oe Js. destruct jobs as [|[[c0 id0] p0] js] eqn:Ej.
  { destruct (C85_can_always_finish E will rank h s Wi H Po U Se) as (h2 & s2 & R2 & H2 & Po2 & A2 & U2 & _ & Ns & _).
    exists h2, s2. split; [now apply helped_worked|]. repeat (split; [assumption|]). intros ? ? ? []. }
  rewrite <- Ej in *. destruct (Js c0 id0 p0) as ((Rg & C1 & C2) & _); [rewrite Ej; now left|].
  destruct (to_calm E will rank h s c0 Wi H Po U Se Aw C1 C2) as (h1 & s1 & R1 & Ca1 & (d & Ld & Nd) & _).
  destruct (drive_all E will rank jobs Wi jobs (fun x X => X) Oe (h ++ h1) s1 Ca1) as (h2 & s2 & R2 & Ca2 & _ & Fi).
  - intros c id p X. destruct (Js c id p X) as (Hc & Tp & Pw). split.
    + destruct Hc as (Rc & E1 & E2). destruct (helped_adds E will s h1 s1 R1 h c H E1 E2) as [_ [F1 F2]]. split; [rewrite Ld; unfold registered; rewrite flat_map_app; apply in_app_iff; now left|auto].
    + destruct (not_issued c d) as [Pd Rd]; [intros n o; apply Nd|].
      assert (Pk : picks c (fun _ => true) (s_log s1) = picks c (fun _ => true) (s_log s)) by (rewrite Ld, picks_app, Pd; apply app_nil_r).
      assert (Ms : map snd (picks c (fun _ => true) (s_log s1)) = requests c (s_log s1)) by (rewrite picks_snd; generalize (requests c (s_log s1)); intros os; induction os as [|o os IHo]; [reflexivity|cbn [filter]; now rewrite IHo]).
      rewrite <- Ms. unfold replies. apply residual; [|exact Tp|].
      * intros n o Y W. apply picks_in in Y as [Y _]. exact (gets_willing E will rank _ s1 c n o Ca1 Y W).
      * rewrite Ms. assert (Rq : requests c (s_log s1) = requests c (s_log s)) by (rewrite Ld, requests_app, Rd; apply app_nil_r).
        rewrite Rq, Pk, Ld. destruct (replies_longer (s_log s) d (picks c (fun _ => true) (s_log s))) as [t Et]. rewrite Et.
        assert (Nt : ~ In NotQueued t). { intros Y. apply (replies_queued (s_log s ++ d) (picks c (fun _ => true) (s_log s))). rewrite Et. apply in_app_iff. now right. }
        destruct (exec_longer p (replies_to (s_log s) (picks c (fun _ => true) (s_log s))) t Nt) as [u Eu]. rewrite Eu.
        destruct Pw as [Pw|[o Pw]]; unfold running, replies in Pw; [rewrite <- Pw; now exists u|]. rewrite Pw, <- app_assoc. now eexists.
  - rewrite <- app_assoc in Ca2. exists (h1 ++ h2), s2. split; [eapply worked_app; [now apply helped_worked; exact R1|exact R2]|].
    destruct Ca2 as [H2 Po2 U2 Se2 Aw2 Re2 Up2 _ _]. auto 10.
Qed.
Print Assumptions C89_all_programs_can_end.

(** * Building consumers and producers *)
(** A failed request ends the program. *)
Fixpoint stops (p : prog) : Prop :=
  match p with
  | Done _ => True
  | Ask o k => (forall e, k (Err e) = Done (Err e)) /\ k Panic = Done Panic /\ forall i, stops (k (Ok i))
  | Post o k => stops (k (Ok tt))
  end.
Lemma stops_modest id will p Q : stops p -> yields id will p Q -> modest id will p.
Proof.
  induction p as [r|o k IH|o k IH]; cbn [stops yields modest]; [auto| |].
  - intros (S1 & S2 & S3) (A & B & Y). split; [exact A|]. split; [exact B|]. intros r Mg.
    assert (C : forall x, stops (k x)).
    { intros [i|e|]; [apply S3|rewrite S1; exact Logic.I|rewrite S2; exact Logic.I]. }
    destruct Mg as [->|(a & i & j & kd & X1 & X2 & X3 & X4 & ->)]; [|exact (IH _ (C _) (Y a i j kd X1 X2 X3 X4))].
    cbn [ask_result]. rewrite S1. exact Logic.I.
  - intros S (A & B & Y). split; [exact A|]. split; [exact B|]. exact (IH _ S Y).
Qed.
Lemma ask_stops id name s c k : (forall s1 i, stops (k s1 i)) -> stops (ask id name s c k).
Proof. intros K. unfold ask. destruct (build id name s c) as [o s1]. cbn [stops]. split; [reflexivity|]. split; [reflexivity|]. intros i. apply K. Qed.
Lemma post_stops id name s c k : (forall s1, stops (k s1)) -> stops (post id name s c k).
Proof. intros K. unfold post. destruct (build id name s c) as [o s1]. cbn [stops]. apply K. Qed.
Lemma lookup_stops id name topic s k : (forall s1, stops (k s1)) -> stops (lookup_topic id name topic s k).
Proof.
  intros K. apply ask_stops. intros s1 i. destruct i; try exact Logic.I. destruct (lr_type r); try exact Logic.I.
  destruct (lr_proxy r); [|apply K]. apply ask_stops. intros s2 _. apply ask_stops. intros s3 _. apply K.
Qed.
Lemma then_stops p q : stops p -> stops q -> stops (and_then p q).
Proof.
  intros P Q. induction p as [r|o k IH|o k IH]; cbn [stops and_then] in *; [destruct r; [exact Q|exact Logic.I|exact Logic.I]| |].
  - destruct P as (S1 & S2 & S3). split; [intros e; now rewrite S1|]. split; [now rewrite S2|]. intros i. apply IH, S3.
  - apply IH, P.
Qed.
Lemma consumer_stops id name topic sub permits s : stops (consumer_connect id name topic sub permits s).
Proof. apply ask_stops. intros s1 _. apply lookup_stops. intros s2. apply ask_stops. intros s3 _. apply post_stops. intros s4. exact Logic.I. Qed.
Lemma producer_stops id name topic s : stops (producer_connect id name topic s).
Proof. apply ask_stops. intros s1 _. apply lookup_stops. intros s2. apply ask_stops. intros s3 _. exact Logic.I. Qed.
Lemma sends_stops id name ds : forall s, stops (send_each id name s ds).
Proof. induction ds as [|d ds IH]; intros s; [exact Logic.I|]. apply ask_stops. intros s1 _. apply IH. Qed.
Lemma ordinary_modest id p : ordinary id p -> modest id found_topic p.
Proof.
  intros [name topic sub permits Hi To Tl So Sl Pe|name topic ds Hi To Tl So Sl Hd].
  - eapply stops_modest; [apply consumer_stops|apply consumer_yields; auto].
  - eapply stops_modest; [apply then_stops; [apply producer_stops|apply sends_stops]|].
    apply yields_then; [now apply producer_yields|]. apply sends_yield; auto. cbn. lia.
Qed.
(** In particular consumers and producers being built, and producers sending. *)
Theorem C89_builds_and_sends_can_end : forall E rank h s jobs, reach E h s -> as_polled E rank h -> unharmed E h -> sensible E (s_log s) -> all_willing found_topic (s_log s) ->
  one_each jobs -> (forall c id p, In (c, id, p) jobs -> held c id s /\ ordinary id p /\ partway c p (s_log s)) ->
  exists h2 s2, worked E found_topic jobs s h2 s2 /\ reach E (h ++ h2) s2 /\ as_polled E rank (h ++ h2) /\ at_rest E rank (h ++ h2) s2 /\ unharmed E (h ++ h2) /\ ~ In OStop (s_log s2) /\
    forall c id p, In (c, id, p) jobs -> running c p (s_log s2) /\ exists x, snd (exec p (replies c (s_log s2))) = Some x.
Proof.
  intros E rank h s jobs H Po U Se Aw Oe Js. apply (C89_all_programs_can_end E found_topic rank h s jobs willing_answers H Po U Se Aw Oe).
  intros c id p X. destruct (Js c id p X) as (A & B & C). split; [exact A|]. split; [now apply ordinary_modest|exact C].
Qed.
Print Assumptions C89_builds_and_sends_can_end.

(** * A concrete case *)
(** Client 0 is building a consumer: its lookup has not been written. Client 1 is building a
    producer, which is to send two messages: its connect has not been taken. Client 2 has
    not made its first request yet. *)
Definition j_events : list event :=
  x_reg2 ++ [EvNewId; EvRegister 2 (str "t"); EvReg; EvConfirm 2%nat] ++ x_connect 0 ++ [EvIssue 0%nat (OLookup 0 (str "t")); EvClient 0; EvIssue 1%nat plain_connect].
Definition j_log : list obs := Eval vm_compute in match xrun j_events with Some l => l | None => [] end.
Definition j_jobs : list (nat * N * prog) :=
  [(0, 0%N, consumer_connect 0 (str "n") (str "t") (str "s") 250 Client.fresh); (1, 1%N, produce 1 (str "p") (str "u") [str "x"; str "y"]); (2, 2%N, produce 2 (str "q") (str "v") [])].
Example C89_meets : exists s, reach xE j_events s /\ (forall rank, as_polled xE rank j_events) /\ unharmed xE j_events /\ sensible xE (s_log s) /\ all_willing found_topic (s_log s) /\
  one_each j_jobs /\ (forall c id p, In (c, id, p) j_jobs -> held c id s /\ ordinary id p /\ partway c p (s_log s) /\ snd (exec p (replies c (s_log s))) = None) /\
  ~ running 2 (produce 2 (str "q") (str "v") []) (s_log s) /\ (exists n, In (OIssue 0 n (OLookup 0 (str "t"))) (s_log s) /\ ~ In n (settled (s_log s))).
Proof.
  unfold reach. destruct (run xE sys_init j_events) as [s|] eqn:R; [|vm_compute in R; discriminate]. exists s. split; [reflexivity|].
  split; [apply orderly_polled; vm_compute; reflexivity|].
  assert (El : s_log s = j_log) by (vm_compute in R; injection R as <-; reflexivity).
  assert (Se : sensible xE (s_log s)).
  { rewrite El. split; [|split; [exact Logic.I|]].
    - unfold j_log. intros c n o X. cbn [In] in X.
      repeat (destruct X as [X|X]; [first [discriminate X|injection X as <- <- <-; split; [cbn [req_ok]; unfold opt_ok, string_ok, u64, mid_ok; repeat (first [apply Forall_cons|apply Forall_nil|split]); try exact Logic.I; vm_compute; reflexivity|vm_compute; reflexivity]]|]). destruct X.
    - intros d [->|[n X]]; [vm_compute; reflexivity|]. unfold j_log in X. cbn [In] in X. repeat (destruct X as [X|X]; [discriminate X|]). destruct X. }
  split; [apply (benign_unharmed xE j_events s R Se); vm_compute; reflexivity|]. split; [exact Se|].
  assert (Hd : held 0 0%N s /\ held 1 1%N s /\ held 2 2%N s).
  { clear El Se. vm_compute in R. injection R as <-. unfold held. split; [|split]; (split; [vm_compute; tauto|]; split; vm_compute; reflexivity). }
  split; [rewrite El; intros a ser i X; unfold j_log in X; cbn [In] in X; repeat (destruct X as [X|X]; [first [discriminate X|injection X as <- <- <-; exact Logic.I]|]); destruct X|].
  split; [unfold one_each, j_jobs; cbn [map fst]; repeat constructor; cbn; intuition discriminate|].
  destruct Hd as (H0 & H1 & H2). rewrite El. split; [|split].
  - assert (G : Forall (fun x : nat * N * prog => let '(c, id, p) := x in held c id s /\ ordinary id p /\ partway c p j_log /\ snd (exec p (replies c j_log)) = None) j_jobs);
      [|intros c id p X; rewrite Forall_forall in G; exact (G (c, id, p) X)].
    unfold j_jobs. apply Forall_cons; [|apply Forall_cons; [|apply Forall_cons; [|apply Forall_nil]]]; (split; [assumption|]; split; [|split]).
    + apply a_consumer; vm_compute; reflexivity.
    + left. vm_compute. reflexivity.
    + vm_compute. reflexivity.
    + apply a_producer; [vm_compute; reflexivity..|]. intros d [<-|[<-|[]]]; vm_compute; reflexivity.
    + left. vm_compute. reflexivity.
    + vm_compute. reflexivity.
    + apply a_producer; [vm_compute; reflexivity..|]. intros d [].
    + right. exists plain_connect. vm_compute. reflexivity.
    + vm_compute. reflexivity.
  - intros X. vm_compute in X. discriminate X.
  - exists 1. split; [unfold j_log; cbn [In]; tauto|]. vm_compute. intros X. repeat (destruct X as [X|X]; [discriminate X|]). destruct X.
Qed.

(** * C22, to the caller *)
(** A call that has completed, in any state whatever, has returned the answer or - if its
    request was superseded - ChannelTerminated; never Unresolvable. *)
Theorem C22_caller_gets_the_answer : forall E h s c n o r, reach E h s -> In (OIssue c n o) (s_log s) -> resp_of o <> None -> outcome_of n (s_log s) = Some r ->
  (exists ser i, r = Resolved i /\ In (OAnswer n ser i) (s_log s) /\ ask_result o r = Ok i) \/
  (r = Cancelled /\ In (OCancel n) (s_log s) /\ ask_result o r = Err ChannelTerminated).
Proof.
  intros E h s c n o r H Is Rs O. destruct (outcome_in _ _ _ O) as [(ser & j & -> & A)|[-> A]]; [|right; auto].
  left. exists ser, j. split; [reflexivity|]. split; [exact A|].
  apply in_split in A as (l1 & l2 & El). destruct (C34_answer_of_its_kind E _ s _ _ _ _ _ H El) as (l0 & a & i & k & -> & Ar & Sn & (q & Rk & K & _) & An).
  assert (q = o) as -> by (apply (requested_uniq E _ s n _ _ H); [rewrite El, <- app_assoc; now apply requested_app|now exists c]).
  cbn [ask_result]. destruct (resp_of o) as [kd|] eqn:Ro; [|now elim Rs].
  destruct o as [| | |[?|?]| | | | | |]; cbn in K, Ro; try discriminate Ro; injection K as <-; injection Ro as <-; destruct j; cbn [answers] in An; try contradiction; reflexivity.
Qed.
Print Assumptions C22_caller_gets_the_answer.
(** In a run in which an acknowledgement was superseded both happen. *)
Example C22_caller_meets : exists s, reach xE x_two_acks s /\ In (OIssue 0 2 (x_ack 0)) (s_log s) /\ outcome_of 2 (s_log s) = Some Cancelled /\
  In (OIssue 1 1 (OConnect (mk_connect None None None))) (s_log s) /\ outcome_of 1 (s_log s) = Some (Resolved InConnected).
Proof. unfold reach. destruct (run xE sys_init x_two_acks) as [s|] eqn:R; [|vm_compute in R; discriminate]. exists s. split; [reflexivity|]. vm_compute in R. injection R as <-. vm_compute. intuition reflexivity. Qed.
