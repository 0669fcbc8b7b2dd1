(** C86: as long as nothing has failed, any program of calls can be run to its end. *)
From Verif Require Import Bytes Errors Wire Proto Codec Address Message SpecCodec SpecMessage Client SpecKeys SpecClient Engine SpecEngine SpecEngine2 EngineFacts EngineInv EngineReq EngineEv EngineConn EngineLog EngineView EngineQueue EngineRoute EngineNet EngineGate EngineLife EngineEx SpecTurn TurnFacts SpecStack SpecAnswered SpecLoop SpecRest SpecEnd SpecBuild SpecFinish SpecServe PropMessage PropClient PropEngine PropEngine2 PropEngine3 PropTurn PropReceipt PropAnswered PropStart PropLoop PropEnd PropRest PropBuild PropFinish.
Open Scope nat_scope.

(** What a continuation of this kind adds. *)
Lemma helped_adds E will s h2 s2 : helped E will s h2 s2 -> forall h c, reach E h s -> ch_client (s_ch s c) = true -> ch_use (s_ch s c) = true ->
  (exists d, s_log s2 = s_log s ++ d /\ (forall b n o, ~ In (OIssue b n o) d) /\ forall a ser i, In (OArrive a ser i) d -> will i) /\
  ch_client (s_ch s2 c) = true /\ ch_use (s_ch s2 c) = true.
Proof.
  induction 1 as [s|s e s1 h2 s2 W S _ IH|s a mc i s1 h2 s2 Sd To Wl Ow S _ IH]; intros h c H C1 C2.
  - split; [exists []; rewrite app_nil_r; split; [reflexivity|split; intros ? ? ? []]|auto].
  - pose proof (step_trans _ _ _ _ (reach_wf E h s H) S) as T.
    assert (H1 : reach E (h ++ [e]) s1) by (apply (reach_app E h s [e] s1 H); cbn [run]; now rewrite S).
    destruct (trans_client E s e s1 c (v_h E s (reach_all E h s H)) T C1 C2) as [D1 D2]; [intros ->; exact W|].
    destruct (IH _ c H1 D1 D2) as [(d & Ld & Nd & Ad) X]. split; [|exact X].
    destruct (EngineLife.trans_issue E s e s1 T) as (l & Ll & Nl).
    destruct (trans_noarr E s e s1) as (l' & Ll' & Un); [intros a x ->; exact W|exact T|]. assert (l' = l) as -> by (rewrite Ll in Ll'; now apply app_inv_head in Ll').
    exists (l ++ d). split; [now rewrite Ld, Ll, app_assoc|]. split.
    + intros b n o Y. apply in_app_iff in Y as [Y|Y]; [|exact (Nd b n o Y)]. destruct (Nl b n o Y) as (-> & _). exact W.
    + intros a ser i Y. apply in_app_iff in Y as [Y|Y]; [|exact (Ad a ser i Y)]. rewrite forallb_forall in Un. specialize (Un _ Y). discriminate Un.
  - pose proof (step_trans _ _ _ _ (reach_wf E h s H) S) as T.
    assert (H1 : reach E (h ++ [EvNet a (IFrame mc)]) s1) by (apply (reach_app E h s [_] s1 H); cbn [run]; now rewrite S).
    destruct (trans_client E s _ s1 c (v_h E s (reach_all E h s H)) T C1 C2) as [D1 D2]; [discriminate|].
    destruct (IH _ c H1 D1 D2) as [(d & Ld & Nd & Ad) X]. split; [|exact X].
    destruct (EngineLife.trans_issue E s _ s1 T) as (l & Ll & Nl).
    assert (Al : forall b ser j, In (OArrive b ser j) l -> will j).
    { intros b ser j Y. destruct (trans_inbound E s _ s1 b T) as (l' & Ll' & Ar). assert (l' = l) as -> by (rewrite Ll in Ll'; now apply app_inv_head in Ll').
      assert (Z : In j (arrived_at b l)) by (unfold arrived_at; apply in_flat_map; eexists; split; [exact Y|]; cbn beta iota; rewrite baddr_eqb_refl; now left).
      rewrite Ar in Z. unfold nets in Z. cbn [flat_map] in Z. destruct (baddr_eqb a b); [|destruct Z]. unfold inbounds in Z. cbn [flat_map app] in Z. rewrite To in Z. destruct Z as [<-|[]]. exact Wl. }
    exists (l ++ d). split; [now rewrite Ld, Ll, app_assoc|]. split.
    + intros b n o Y. apply in_app_iff in Y as [Y|Y]; [|exact (Nd b n o Y)]. destruct (Nl b n o Y) as (Y' & _). discriminate Y'.
    + intros b ser j Y. apply in_app_iff in Y as [Y|Y]; [exact (Al b ser j Y)|exact (Ad b ser j Y)].
Qed.
Lemma helped_served E will c p s h s2 : helped E will s h s2 -> served E will c p s h s2.
Proof. induction 1; [constructor|eapply served_task; eauto|eapply served_answer; eauto]. Qed.
Lemma served_app E will c p s h s1 h2 s2 : served E will c p s h s1 -> served E will c p s1 h2 s2 -> served E will c p s (h ++ h2) s2.
Proof. intros A B. induction A; cbn [app]; [exact B|eapply served_task; eauto|eapply served_answer; eauto|eapply served_call; eauto]. Qed.

(** * Programs and the replies to them *)
(** On the replies [rs] program [p] has made [made], and goes on as [q]. *)
Definition so_far (p : prog) (rs : list reply) (made : list outbound) (q : prog) : Prop :=
  forall t, exec p (rs ++ t) = (made ++ fst (exec q t), snd (exec q t)).
Lemma so_far_start p : so_far p [] [] p.
Proof. intros t. cbn [app]. apply surjective_pairing. Qed.
Lemma so_far_ask p rs made o k r : so_far p rs made (Ask o k) -> r <> NotQueued -> so_far p (rs ++ [r]) (made ++ [o]) (k (ask_result o r)).
Proof.
  intros S N t. rewrite <- app_assoc. cbn [app]. rewrite S. cbn [exec]. destruct r as [i| |]; [| |now elim N];
    (destruct (exec (k (ask_result o _)) t) as [l x]; cbn [fst snd]; now rewrite <- app_assoc).
Qed.
Lemma so_far_post p rs made o k r : so_far p rs made (Post o k) -> r <> NotQueued -> so_far p (rs ++ [r]) (made ++ [o]) (k (post_result r)).
Proof.
  intros S N t. rewrite <- app_assoc. cbn [app]. rewrite S. cbn [exec]. destruct r as [i| |]; [| |now elim N];
    (destruct (exec (k (post_result _)) t) as [l x]; cbn [fst snd]; now rewrite <- app_assoc).
Qed.
Lemma so_far_now p rs made q : so_far p rs made q -> exec p rs = (made ++ fst (exec q []), snd (exec q [])).
Proof. intros S. pose proof (S []) as X. now rewrite app_nil_r in X. Qed.
Lemma outcome_app n l m x : outcome_of n l = Some x -> outcome_of n (l ++ m) = Some x.
Proof.
  induction l as [|y l IH]; [discriminate|]. cbn [app outcome_of]. destruct y; try exact IH; destruct (_ =? _); auto.
Qed.
Lemma replies_more l m ps qs : (forall n o, In (n, o) ps -> waits o = true -> In n (settled l)) -> replies_to (l ++ m) (ps ++ qs) = replies_to l ps ++ replies_to (l ++ m) qs.
Proof.
  induction ps as [|[n o] ps IH]; intros S; [reflexivity|]. cbn [app replies_to].
  assert (Ip : replies_to (l ++ m) (ps ++ qs) = replies_to l ps ++ replies_to (l ++ m) qs) by (apply IH; intros x q X; apply S; now right).
  destruct (waits o) eqn:W; [|cbn [app]; now rewrite Ip].
  pose proof (proj1 (outcome_settled n l) (S n o (or_introl eq_refl) W)) as X. destruct (outcome_of n l) as [x|] eqn:O; [|congruence].
  rewrite (outcome_app n l m x O). cbn [app]. now rewrite Ip.
Qed.
Lemma no_issue_picks c d : (forall b n o, ~ In (OIssue b n o) d) -> picks c (fun _ => true) d = [] /\ requests c d = [].
Proof.
  induction d as [|x d IH]; intros N; [split; reflexivity|]. destruct IH as [A B]; [intros b n o X; apply (N b n o); now right|].
  unfold picks, requests in *. cbn [flat_map]. rewrite A, B. destruct x; try (split; reflexivity). elim (N h n o). now left.
Qed.
Lemma unused_picks c l : requests c l = [] -> picks c (fun _ => true) l = [].
Proof.
  intros R. pose proof (picks_snd c (fun _ => true) l) as X. rewrite R in X. cbn [filter] in X. now apply map_eq_nil in X.
Qed.

(** * States in which nothing is going on *)
Record calm (E : env) (will : inbound -> Prop) (rank : nat -> baddr -> nat) (h : list event) (s : sys) : Prop := mk_calm {
  ca_reach : reach E h s; ca_polled : as_polled E rank h; ca_unharmed : unharmed E h; ca_sensible : sensible E (s_log s);
  ca_will : all_willing will (s_log s); ca_rest : at_rest E rank h s; ca_up : ~ In OStop (s_log s);
  ca_taken : forall c n o, In (OIssue c n o) (s_log s) -> In n (takes (s_log s));
  ca_done : forall c n o, In (OIssue c n o) (s_log s) -> waits o = true -> In n (settled (s_log s)) }.
Lemma to_calm E will rank h s c : some_answer will -> reach E h s -> as_polled E rank h -> unharmed E h -> sensible E (s_log s) -> all_willing will (s_log s) ->
  ch_client (s_ch s c) = true -> ch_use (s_ch s c) = true ->
  exists h2 s2, helped E will s h2 s2 /\ calm E will rank (h ++ h2) s2 /\ (exists d, s_log s2 = s_log s ++ d /\ forall b n o, ~ In (OIssue b n o) d) /\
    ch_client (s_ch s2 c) = true /\ ch_use (s_ch s2 c) = true.
Proof.
  intros Wi H Po U Se Aw C1 C2.
  destruct (C85_can_always_finish E will rank h s Wi H Po U Se) as (h2 & s2 & R2 & H2 & Po2 & A2 & U2 & Se2 & Ns & Nl & An & Rq & Fin).
  destruct (helped_adds E will s h2 s2 R2 h c H C1 C2) as [(d & Ld & Nd & Ad) [D1 D2]].
  exists h2, s2. split; [exact R2|]. split; [|split; [now exists d|auto]]. split; auto.
  - intros a ser i X. rewrite Ld in X. apply in_app_iff in X as [X|X]; [exact (Aw a ser i X)|exact (Ad a ser i X)].
  - pose proof (C84_no_connect_left E rank _ s2 H2 Po2 A2 Ns Nl An) as Nc.
    destruct (C82_at_rest E rank _ s2 H2 Po2 A2) as [[X _]|(_ & _ & [(m & b & r & _ & X)|(_ & _ & _ & Fw & _)])]; [contradiction|elim (Nc m X)|].
    intros b n o Is. destruct (Fin b n o Is) as [[id Rg] _].
    assert (I : In n (issued b (s_log s2))) by (unfold issued; apply in_flat_map; eexists; split; [exact Is|]; cbn beta iota; rewrite Nat.eqb_refl; now left).
    pose proof (Fw b id n Rg I) as X. unfold forwarded in X. apply in_flat_map in X as (x & Hx & X). destruct x; try (destruct X; fail). destruct X as [<-|[]].
    apply in_split in Hx as (l1 & l2 & El). destruct (reach_entries E _ s2 H2 _ _ _ El) as (_ & _ & T & _). rewrite El, EngineReq.takes_app. apply in_app_iff. now left.
  - intros b n o Is. exact (proj2 (Fin b n o Is)).
Qed.
(** A request made when nothing is going on is not dropped for another one. *)
Lemma alone_kept E h s l c n o d : reach E h s -> ~ In OStop (s_log s) -> s_log s = l ++ OIssue c n o :: d -> (forall b m q, ~ In (OIssue b m q) d) ->
  (forall b m q, In (OIssue b m q) l -> In m (takes l)) -> ~ In n (takes l) -> ~ In (OCancel n) (s_log s).
Proof.
  intros H Ns El Nd Tk Nn X. apply in_split in X as (l1 & l2 & Ec).
  destruct (reach_entries E h s H _ _ _ Ec) as [Y|(l0 & m & key & q & -> & (w & _ & _ & _ & Wt & _) & [b Rm] & _)]; [apply Ns; rewrite Ec; apply in_app_iff; now left|].
  pose proof (r_tknd s (v_r E s (reach_all E h s H))) as Td.
  assert (Mn : m <> n).
  { intros ->. rewrite Ec, <- app_assoc, EngineReq.takes_app in Td. cbn [app takes flat_map] in Td. apply NoDup_remove_2 in Td. apply Td, in_app_iff. now left. }
  assert (Mo : In m (takes l)).
  { assert (Z : In (OIssue b m q) (s_log s)) by (rewrite Ec; apply in_app_iff; left; apply in_app_iff; now left).
    rewrite El in Z. apply in_app_iff in Z as [Z|[Z|Z]]; [exact (Tk b m q Z)|injection Z as -> -> ->; now elim Mn|elim (Nd _ _ _ Z)]. }
  rewrite El in Ec. rewrite <- !app_assoc in Ec. cbn [app] in Ec.
  destruct (app_eq_app _ _ _ _ Ec) as (r & [[-> Er]|[-> Er]]).
  - apply Nn. rewrite EngineReq.takes_app. apply in_app_iff. now left.
  - rewrite El, Ec, EngineReq.takes_app in Td. change (takes (OTake m :: OCancel n :: l2)) with (m :: takes l2) in Td.
    apply NoDup_remove_2 in Td. apply Td, in_app_iff. left. rewrite EngineReq.takes_app. apply in_app_iff. now left.
Qed.
(** One call. *)
Lemma one_call E will rank h s c id o : some_answer will -> calm E will rank h s -> In (c, id) (registered (s_log s)) -> ch_client (s_ch s c) = true -> ch_use (s_ch s c) = true -> reasonable id o ->
  exists s1 h2 s2 d, step E s (EvIssue c o) = Some s1 /\ helped E will s1 h2 s2 /\ calm E will rank (h ++ EvIssue c o :: h2) s2 /\
    s_log s2 = s_log s ++ OIssue c (s_nreq s) o :: d /\ (forall b m q, ~ In (OIssue b m q) d) /\
    ch_client (s_ch s2 c) = true /\ ch_use (s_ch s2 c) = true /\
    (waits o = true -> exists kd a i j, kind_of o = Some kd /\ will i /\ seen_as a i j /\ answers j kd /\ outcome_of (s_nreq s) (s_log s2) = Some (Resolved j)).
Proof.
  intros Wi [H Po U Se Aw Re Up Tk Dn] Rg C1 C2 (Ap & Ro & Rw). pose proof (reach_all E h s H) as I. pose proof (v_h E s I) as Hi.
  rewrite (g_reg s (reach_gate E h s H)) in Rg. unfold pairs in Rg.
  assert (Ci : ch_id (s_ch s c) = id) by exact (h_cid s Hi c id Rg).
  assert (Ce : ch_engine (s_ch s c) = true).
  { apply (h_engine s Hi). left. split; [|intros X; apply Up, (i_stop s (v_s E s I)); exact X].
    apply in_map_iff in Rg as (x & Ex & Hx). injection Ex as <- _. now apply in_map. }
  set (s1 := say (upd_ch (with_counts s (S (s_nreq s)) (s_narr s)) c (ch_push_up (s_nreq s, o))) [OIssue c (s_nreq s) o]).
  assert (S1 : step E s (EvIssue c o) = Some s1) by (cbn [step]; rewrite C1, C2, Ci, Ap, Ce; reflexivity).
  assert (H1 : reach E (h ++ [EvIssue c o]) s1) by (apply (reach_app E h s [_] s1 H); cbn [run]; now rewrite S1).
  assert (L1 : s_log s1 = s_log s ++ [OIssue c (s_nreq s) o]) by reflexivity.
  pose proof (step_trans _ _ _ _ (reach_wf E h s H) S1) as T.
  destruct (trans_client E s _ s1 c Hi T C1 C2 ltac:(discriminate)) as [D1 D2].
  destruct (to_calm E will rank (h ++ [EvIssue c o]) s1 c Wi H1) as (h2 & s2 & R2 & Ca & (d & Ld & Nd) & F1 & F2); auto.
  - exact (polled_snoc E rank h (EvIssue c o) s Po H Logic.I).
  - apply (unharmed_snoc E h s _ H U).
    + exact (fun x => x).
    + intros b x Y. discriminate Y.
    + intros b [Y|[Y|[(mc' & Y & Z)|(now & io & q & r & rest & Y & _)]]]; discriminate Y.
  - destruct Se as (A & B & C). rewrite L1. split; [|split; [exact B|]].
    + intros b m q X. apply in_app_iff in X as [X|[X|[]]]; [exact (A b m q X)|]. injection X as <- <- <-. auto.
    + intros x [X|[m X]]; apply C; [now left|]. right. exists m. apply in_app_iff in X as [X|[X|[]]]; [exact X|discriminate X].
  - rewrite L1. intros a ser i X. apply in_app_iff in X as [X|[X|[]]]; [exact (Aw a ser i X)|discriminate X].
  - exists s1, h2, s2, d. rewrite L1, <- app_assoc in Ld. rewrite <- app_assoc in Ca. cbn [app] in Ld, Ca.
    repeat (split; [assumption|]). intros W. destruct Ca as [H2 _ _ _ Aw2 _ Ns2 _ Dn2].
    assert (Is : In (OIssue c (s_nreq s) o) (s_log s2)) by (rewrite Ld; apply in_elt).
    pose proof (proj1 (outcome_settled _ _) (Dn2 c _ o Is W)) as O. destruct (outcome_of (s_nreq s) (s_log s2)) as [r|] eqn:Or; [|congruence].
    assert (Nt : ~ In (s_nreq s) (takes (s_log s))).
    { intros X. unfold takes in X. apply in_flat_map in X as (x & Hx & X). destruct x; try (destruct X; fail). destruct X as [->|[]].
      apply in_split in Hx as (l1 & l2 & El). destruct (reach_entries E h s H _ _ _ El) as (_ & (q & b & Rq) & _).
      assert (Y : In (OIssue b (s_nreq s) q) (s_log s)) by (rewrite El; apply in_app_iff; now left). pose proof (r_lt s (v_r E s I) b _ q Y). lia. }
    destruct (outcome_in _ _ _ Or) as [(ser & j & -> & A)|[-> A]].
    2:{ elim (alone_kept E _ s2 (s_log s) c (s_nreq s) o d H2 Ns2 Ld Nd Tk Nt A). }
    apply in_split in A as (l1 & l2 & El).
    destruct (C34_answer_of_its_kind E _ s2 _ _ _ _ _ H2 El) as (l0 & a & i & k & -> & Ar & Sn & (q & Rq & K & _) & An).
    assert (q = o) as -> by (apply (requested_uniq E _ s2 (s_nreq s) _ _ H2); [rewrite El, <- app_assoc; now apply requested_app|now exists c]).
    exists k, a, i, j. split; [exact K|]. split; [|auto]. apply (Aw2 a ser i). rewrite El, <- app_assoc. apply in_app_iff. now left.
Qed.
(** Before it is made the replies are these; after it there is one more. *)
Lemma replies_after E will rank h s l2 c o d : calm E will rank h s -> l2 = s_log s ++ OIssue c (s_nreq s) o :: d -> (forall b m q, ~ In (OIssue b m q) d) ->
  requests c l2 = requests c (s_log s) ++ [o] /\
  replies c l2 = replies c (s_log s) ++ (if waits o then match outcome_of (s_nreq s) l2 with Some x => [x] | None => [] end else [Resolved InPong]).
Proof.
  intros Ca L Nd. destruct (no_issue_picks c d Nd) as [Pd Qd].
  assert (P : picks c (fun _ => true) l2 = picks c (fun _ => true) (s_log s) ++ [(s_nreq s, o)]).
  { rewrite L, picks_app. f_equal. change (OIssue c (s_nreq s) o :: d) with ([OIssue c (s_nreq s) o] ++ d). rewrite picks_app, Pd. unfold picks. cbn. now rewrite Nat.eqb_refl. }
  split.
  - rewrite L, requests_app. f_equal. change (OIssue c (s_nreq s) o :: d) with ([OIssue c (s_nreq s) o] ++ d). rewrite requests_app, Qd. unfold requests. cbn. now rewrite Nat.eqb_refl.
  - unfold replies. rewrite P. rewrite L at 1. rewrite replies_more, <- L; [|intros n q X W; apply picks_in in X as [X _]; exact (ca_done _ _ _ _ _ Ca c n q X W)].
    cbn [replies_to]. now destruct (waits o); [destruct (outcome_of _ _)|].
Qed.
Lemma drive E will rank c id p Q : some_answer will -> forall q h s, calm E will rank h s -> In (c, id) (registered (s_log s)) -> ch_client (s_ch s c) = true -> ch_use (s_ch s c) = true ->
  so_far p (replies c (s_log s)) (requests c (s_log s)) q -> yields id will q Q ->
  exists h2 s2, served E will c p s h2 s2 /\ calm E will rank (h ++ h2) s2 /\ running c p (s_log s2) /\ exists x, snd (exec p (replies c (s_log s2))) = Some x /\ Q x.
Proof.
  intros Wi. induction q as [r|o k IH|o k IH]; intros h s Ca Rg C1 C2 Sf Y.
  - exists [], s. rewrite app_nil_r. pose proof (so_far_now _ _ _ _ Sf) as X. cbn [exec fst snd] in X. rewrite app_nil_r in X.
    split; [constructor|]. split; [exact Ca|]. unfold running. rewrite X. cbn [fst snd]. split; [reflexivity|]. exists r. auto.
  - destruct Y as (Re & W & Y). destruct (one_call E will rank h s c id o Wi Ca Rg C1 C2 Re) as (s1 & h2 & s2 & d & S1 & R2 & Ca2 & Ld & Nd & F1 & F2 & An).
    destruct (An W) as (kd & a & i & j & Kd & Wl & Sn & Aj & Oj). destruct (replies_after E will rank h s _ c o d Ca Ld Nd) as [Eq Er]. rewrite W, Oj in Er.
    pose proof (so_far_now _ _ _ _ Sf) as X. cbn [exec fst snd] in X.
    destruct (IH (ask_result o (Resolved j)) (h ++ EvIssue c o :: h2) s2 Ca2) as (h3 & s3 & R3 & Ca3 & Fi); auto.
    + rewrite Ld. unfold registered. rewrite flat_map_app. apply in_app_iff. now left.
    + rewrite Er, Eq. apply so_far_ask; [exact Sf|discriminate].
    + exact (Y a i j kd Kd Wl Sn Aj).
    + exists ((EvIssue c o :: h2) ++ h3), s3. rewrite app_assoc. split; [|auto]. eapply served_app; [|exact R3].
      eapply served_call; [rewrite X; reflexivity|exact S1|]. now apply helped_served.
  - destruct Y as (Re & W & Y). destruct (one_call E will rank h s c id o Wi Ca Rg C1 C2 Re) as (s1 & h2 & s2 & d & S1 & R2 & Ca2 & Ld & Nd & F1 & F2 & _).
    destruct (replies_after E will rank h s _ c o d Ca Ld Nd) as [Eq Er]. rewrite W in Er.
    pose proof (so_far_now _ _ _ _ Sf) as X. cbn [exec fst snd] in X.
    destruct (IH (post_result (Resolved InPong)) (h ++ EvIssue c o :: h2) s2 Ca2) as (h3 & s3 & R3 & Ca3 & Fi); auto.
    + rewrite Ld. unfold registered. rewrite flat_map_app. apply in_app_iff. now left.
    + rewrite Er, Eq. apply so_far_post; [exact Sf|discriminate].
    + exists ((EvIssue c o :: h2) ++ h3), s3. rewrite app_assoc. split; [|auto]. eapply served_app; [|exact R3].
      eapply served_call; [rewrite X; reflexivity|exact S1|]. now apply helped_served.
Qed.

(** As long as nothing has failed, any program of calls can be run to its end by a client
    that has been registered: from any reachable state - other clients may have whatever
    calls under way - there is a continuation in which only this client makes requests,
    those of the program, the tasks take their steps in the engine's order, no call fails
    and the brokers answer, after which the program has returned, with a result
    satisfying [Q] if that is what it makes of the answers they give. *)
Theorem C86_program_can_finish : forall E will rank h s c id p Q, some_answer will -> reach E h s -> as_polled E rank h -> unharmed E h -> sensible E (s_log s) -> all_willing will (s_log s) ->
  unused c id s -> yields id will p Q ->
  exists h2 s2, served E will c p s h2 s2 /\ reach E (h ++ h2) s2 /\ as_polled E rank (h ++ h2) /\ at_rest E rank (h ++ h2) s2 /\ unharmed E (h ++ h2) /\ sensible E (s_log s2) /\ all_willing will (s_log s2) /\
    running c p (s_log s2) /\ exists x, snd (exec p (replies c (s_log s2))) = Some x /\ Q x.
Proof.
  intros E will rank h s c id p Q Wi H Po U Se Aw (Rg & C1 & C2 & Rq) Y.
  destruct (to_calm E will rank h s c Wi H Po U Se Aw C1 C2) as (h1 & s1 & R1 & Ca1 & (d & Ld & Nd) & D1 & D2).
  assert (Rq1 : requests c (s_log s1) = []) by (rewrite Ld, requests_app, Rq; exact (proj2 (no_issue_picks c d Nd))).
  destruct (drive E will rank c id p Q Wi p (h ++ h1) s1 Ca1) as (h2 & s2 & R2 & Ca2 & Ru & Fi); auto.
  - rewrite Ld. unfold registered. rewrite flat_map_app. apply in_app_iff. now left.
  - rewrite Rq1. unfold replies. rewrite (unused_picks c _ Rq1). apply so_far_start.
  - exists (h1 ++ h2), s2. rewrite app_assoc. destruct Ca2. split; [eapply served_app; [now apply helped_served; exact R1|exact R2]|]. auto 10.
Qed.
Print Assumptions C86_program_can_finish.

(** * Building a consumer or a producer, and sending *)
Lemma yields_weaker id will p : forall (Q R : outcome unit -> Prop), (forall x, Q x -> R x) -> yields id will p Q -> yields id will p R.
Proof.
  induction p as [r|o k IH|o k IH]; intros Q R S Y; cbn [yields] in *; [auto| |].
  - destruct Y as (A & B & Y). split; [exact A|]. split; [exact B|]. intros a i j kd X1 X2 X3 X4. eapply IH; [exact S|eauto].
  - destruct Y as (A & B & Y). split; [exact A|]. split; [exact B|]. eapply IH; [exact S|exact Y].
Qed.
Lemma yields_then id will p q Q : yields id will p (fun r => r = Ok tt) -> yields id will q Q -> yields id will (and_then p q) Q.
Proof.
  intros Y Z. induction p as [r|o k IH|o k IH]; cbn [yields and_then] in *; [subst r; exact Z| |].
  - destruct Y as (A & B & Y). split; [exact A|]. split; [exact B|]. intros a i j kd X1 X2 X3 X4. eapply IH; eauto.
  - destruct Y as (A & B & Y). split; [exact A|]. split; [exact B|]. eapply IH; exact Y.
Qed.
Lemma lookup_yields id name topic s k Q : string_ok topic -> (blen topic < 2 ^ 28)%N -> (request_id s < 2 ^ 64)%N ->
  (forall s1, (request_id s1 < 2 ^ 64)%N -> yields id found_topic (k s1) Q) -> yields id found_topic (lookup_topic id name topic s k) Q.
Proof.
  intros To Tl Sr K. assert (Bm : forall n, (bump n < 2 ^ 64)%N) by (intros n; apply N.mod_lt; discriminate).
  unfold lookup_topic, ask. cbn [build yields]. split; [|split; [reflexivity|]].
  { split; [reflexivity|]. cbn [req_ok req_weight]. repeat split; auto. lia. }
  intros a i j kd [= <-] Wl Sn An. destruct j as [| | | | | |r'| | |]; cbn [answers] in An; try contradiction.
  destruct i as [| | | | | |r| | |]; cbn [seen_as] in Sn; try discriminate Sn. destruct Sn as (r'' & [= <-] & S1 & S2 & S3 & S4 & S5 & S6).
  cbn [found_topic] in Wl. destruct Wl as (W1 & W2 & W3). cbn [ask_result resp_of convert is_resp try_].
  assert (lr_type r' = LConnect) as -> by (rewrite S4; exact W1).
  destruct (lr_proxy r'); [|apply K; apply Bm]. cbn [yields]. split; [|split; [reflexivity|]].
  { rewrite S2. split; [reflexivity|]. cbn. repeat split; auto. lia. }
  intros a' i' j' kd' [= <-] _ _ An'. destruct j'; cbn [answers] in An'; try contradiction. cbn [ask_result resp_of convert is_resp try_ yields].
  split; [|split; [reflexivity|]].
  { split; [reflexivity|]. cbn [req_ok req_weight request_id]. repeat split; auto; try apply Bm. lia. }
  intros a2 i2 j2 kd2 [= <-] _ _ An2. destruct j2; cbn [answers] in An2; try contradiction. cbn [ask_result resp_of convert is_resp try_]. apply K. apply Bm.
Qed.
Lemma consumer_yields id name topic sub permits : (id < 2 ^ 64)%N -> string_ok topic -> (blen topic < 2 ^ 28)%N -> string_ok sub -> (blen sub < 2 ^ 28)%N -> (permits * 2 < 2 ^ 32)%N ->
  yields id found_topic (consumer_connect id name topic sub permits Client.fresh) (fun r => r = Ok tt).
Proof.
  intros Hi To Tl So Sl Pe. unfold consumer_connect. unfold ask at 1. cbn [build yields]. split; [|split; [reflexivity|]].
  { split; [reflexivity|]. cbn. repeat split; auto; lia. }
  intros a i j kd [= <-] _ _ An. destruct j; cbn [answers] in An; try contradiction. cbn [ask_result resp_of convert is_resp try_].
  apply lookup_yields; auto; [cbn; lia|]. intros s1 Hs. unfold ask, post. cbn [build yields]. split; [|split; [reflexivity|]].
  { split; [cbn; apply N.eqb_refl|]. cbn [req_ok req_weight]. repeat split; auto. lia. }
  intros a2 i2 j2 kd2 [= <-] _ _ An2. destruct j2; cbn [answers] in An2; try contradiction. cbn [ask_result resp_of convert is_resp try_ yields].
  split; [|split; [reflexivity|reflexivity]]. split; [cbn; apply N.eqb_refl|]. cbn [req_ok req_weight]. repeat split; auto.
Qed.
Lemma producer_yields id name topic : (id < 2 ^ 64)%N -> string_ok topic -> (blen topic < 2 ^ 28)%N -> string_ok name -> (blen name < 2 ^ 28)%N ->
  yields id found_topic (producer_connect id name topic Client.fresh) (fun r => r = Ok tt).
Proof.
  intros Hi To Tl So Sl. unfold producer_connect. unfold ask at 1. cbn [build yields]. split; [|split; [reflexivity|]].
  { split; [reflexivity|]. cbn. repeat split; auto; lia. }
  intros a i j kd [= <-] _ _ An. destruct j; cbn [answers] in An; try contradiction. cbn [ask_result resp_of convert is_resp try_].
  apply lookup_yields; auto; [cbn; lia|]. intros s1 Hs. unfold ask. cbn [build yields]. split; [|split; [reflexivity|]].
  { split; [cbn; apply N.eqb_refl|]. cbn [req_ok req_weight opt_ok opt_len]. repeat split; auto. lia. }
  intros a2 i2 j2 kd2 [= <-] _ _ An2. destruct j2; cbn [answers] in An2; try contradiction. reflexivity.
Qed.
Lemma sends_yield id name will : (id < 2 ^ 64)%N -> string_ok name -> (blen name < 2 ^ 28)%N ->
  forall ds s, (forall d, In d ds -> (blen d < 2 ^ 28)%N) -> (sequence_id s < 2 ^ 64)%N -> yields id will (send_each id name s ds) (fun r => r = Ok tt).
Proof.
  intros Hi So Sl. induction ds as [|d ds IH]; intros s Hd Hs; [reflexivity|]. cbn [send_each]. unfold ask. cbn [build yields].
  pose proof (Hd d (or_introl eq_refl)). split; [|split; [reflexivity|]].
  { split; [cbn; apply N.eqb_refl|]. cbn [req_ok req_weight]. repeat split; auto. lia. }
  intros a i j kd [= <-] _ _ An. destruct j; cbn [answers] in An; try contradiction. cbn [ask_result resp_of convert is_resp try_].
  apply IH; [intros x X; apply Hd; now right|]. cbn [sequence_id]. apply N.mod_lt. discriminate.
Qed.
(** As long as nothing has failed and brokers answer lookups by saying where the topic is,
    a consumer can be built, on an instance in whatever state, *)
Theorem C86_consumer_can_be_built : forall E rank h s c id name topic sub permits, reach E h s -> as_polled E rank h -> unharmed E h -> sensible E (s_log s) -> all_willing found_topic (s_log s) ->
  unused c id s -> (id < 2 ^ 64)%N -> string_ok topic -> (blen topic < 2 ^ 28)%N -> string_ok sub -> (blen sub < 2 ^ 28)%N -> (permits * 2 < 2 ^ 32)%N ->
  let p := consumer_connect id name topic sub permits Client.fresh in
  exists h2 s2, served E found_topic c p s h2 s2 /\ reach E (h ++ h2) s2 /\ as_polled E rank (h ++ h2) /\ at_rest E rank (h ++ h2) s2 /\ unharmed E (h ++ h2) /\
    running c p (s_log s2) /\ snd (exec p (replies c (s_log s2))) = Some (Ok tt).
Proof.
  intros E rank h s c id name topic sub permits H Po U Se Aw Un Hi To Tl So Sl Pe p.
  destruct (C86_program_can_finish E found_topic rank h s c id p (fun r => r = Ok tt) willing_answers H Po U Se Aw Un (consumer_yields id name topic sub permits Hi To Tl So Sl Pe))
    as (h2 & s2 & R & H2 & Po2 & A2 & U2 & _ & _ & Ru & x & Ex & ->). exists h2, s2. auto 10.
Qed.
Print Assumptions C86_consumer_can_be_built.
(** and a producer, which can then send any messages: all are acknowledged. *)
Theorem C86_producer_can_send : forall E rank h s c id name topic ds, reach E h s -> as_polled E rank h -> unharmed E h -> sensible E (s_log s) -> all_willing found_topic (s_log s) ->
  unused c id s -> (id < 2 ^ 64)%N -> string_ok topic -> (blen topic < 2 ^ 28)%N -> string_ok name -> (blen name < 2 ^ 28)%N -> (forall d, In d ds -> blen d < 2 ^ 28)%N ->
  let p := produce id name topic ds in
  exists h2 s2, served E found_topic c p s h2 s2 /\ reach E (h ++ h2) s2 /\ as_polled E rank (h ++ h2) /\ at_rest E rank (h ++ h2) s2 /\ unharmed E (h ++ h2) /\
    running c p (s_log s2) /\ snd (exec p (replies c (s_log s2))) = Some (Ok tt).
Proof.
  intros E rank h s c id name topic ds H Po U Se Aw Un Hi To Tl So Sl Hd p.
  assert (Y : yields id found_topic p (fun r => r = Ok tt)).
  { apply yields_then; [now apply producer_yields|]. apply sends_yield; auto. cbn. lia. }
  destruct (C86_program_can_finish E found_topic rank h s c id p (fun r => r = Ok tt) willing_answers H Po U Se Aw Un Y)
    as (h2 & s2 & R & H2 & Po2 & A2 & U2 & _ & _ & Ru & x & Ex & ->). exists h2, s2. auto 10.
Qed.
Print Assumptions C86_producer_can_send.

(** * A concrete case *)
(** After the run of C85_meets a third client has been registered; the first two are still busy. *)
Definition d_events : list event := c_events ++ [EvNewId; EvRegister 2 (str "t"); EvReg; EvConfirm 2%nat].
Definition d_log : list obs := Eval vm_compute in match xrun d_events with Some l => l | None => [] end.
Example C86_meets : exists s, reach xE d_events s /\ (forall rank, as_polled xE rank d_events) /\ unharmed xE d_events /\ sensible xE (s_log s) /\ all_willing found_topic (s_log s) /\
  unused 2 2%N s /\ ~ all_answered (s_log s) /\ (exists n o, In (OIssue 0 n o) (s_log s) /\ waits o = true /\ ~ In n (settled (s_log s))) /\
  (exists n q, In (OIssue 1 n (OConnect q)) (s_log s) /\ ~ In n (takes (s_log s))) /\
  (forall ds, (forall d, In d ds -> blen d < 2 ^ 28)%N -> yields 2 found_topic (produce 2 (str "p") (str "t") ds) (fun r => r = Ok tt)).
Proof.
  unfold reach. destruct (run xE sys_init d_events) as [s|] eqn:R; [|vm_compute in R; discriminate]. exists s. split; [reflexivity|].
  split; [apply orderly_polled; vm_compute; reflexivity|].
  assert (El : s_log s = d_log) by (vm_compute in R; injection R as <-; reflexivity).
  assert (Se : sensible xE (s_log s)).
  { rewrite El. split; [|split; [exact Logic.I|]].
    - unfold d_log. intros c n o X. cbn [In] in X.
      repeat (destruct X as [X|X]; [first [discriminate X|injection X as <- <- <-; split; [cbn [req_ok]; unfold opt_ok, string_ok, u64, mid_ok; repeat (first [apply Forall_cons|apply Forall_nil|split]); try exact Logic.I; vm_compute; reflexivity|vm_compute; reflexivity]]|]). destruct X.
    - intros d [->|[n X]]; [vm_compute; reflexivity|]. unfold d_log in X. cbn [In] in X. repeat (destruct X as [X|X]; [discriminate X|]). destruct X. }
  split; [apply (benign_unharmed xE d_events s R Se); vm_compute; reflexivity|]. split; [exact Se|].
  assert (Un : unused 2 2%N s) by (clear El Se; vm_compute in R; injection R as <-; unfold unused; split; [vm_compute; tauto|]; repeat split; vm_compute; reflexivity).
  split; [|split; [exact Un|]]; rewrite El.
  - intros a ser i X. unfold d_log in X. cbn [In] in X. repeat (destruct X as [X|X]; [first [discriminate X|injection X as <- <- <-; exact Logic.I]|]). destruct X.
  - split; [|split; [|split]].
    + intros A. destruct (A (firstn (length d_log - 5) d_log) xA 1 (OSend (SSingle (str "p") 0 18446744073709551615 (str "x"))) true (skipn (length d_log - 4) d_log) (KSend 18446744073709551615) ltac:(vm_compute; reflexivity) eq_refl eq_refl) as (ser & i & X & _).
      vm_compute in X. repeat (destruct X as [X|X]; [discriminate X|]). destruct X.
    + exists 2, (x_ack 0). split; [unfold d_log; cbn [In]; tauto|]. split; [reflexivity|]. vm_compute. intros X. repeat (destruct X as [X|X]; [discriminate X|]). destruct X.
    + exists 3, (mk_connect None None (Some (Proxy [] (str "u")))). split; [unfold d_log; cbn [In]; tauto|]. vm_compute. intros X. repeat (destruct X as [X|X]; [discriminate X|]). destruct X.
    + intros ds Hd. apply yields_then; [apply producer_yields; vm_compute; reflexivity|]. apply sends_yield; auto; vm_compute; reflexivity.
Qed.
