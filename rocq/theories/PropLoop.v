(** C78: programs that wait for each acknowledgement or send before making the next. *)
From Verif Require Import Bytes Errors Wire Proto Codec SpecFrame SpecCodec Address Message SpecMessage Client SpecKeys SpecClient Producer Consumer SpecConsumer Engine SpecEngine SpecEngine2 Sink SpecStack SpecAnswered SpecLoop ConsumerFacts SinkFacts EngineFacts EngineInv EngineReq EngineEv EngineConn EngineLog EngineView EngineQueue EngineRoute EngineNet EngineEx SpecTurn TurnFacts CodecFacts MessageFacts PropCodec PropMessage PropClient PropProducer PropConsumer PropEngine PropEngine2 PropEngine6 PropStack PropReceipt PropRoute PropDeliver PropSends PropReads PropAnswered.
Open Scope N_scope.

Lemma picks_app c f l m : picks c f (l ++ m) = picks c f l ++ picks c f m. Proof. apply flat_map_app. Qed.
Lemma picks_in c f l n o : In (n, o) (picks c f l) <-> In (OIssue c n o) l /\ f o = true.
Proof.
  unfold picks. rewrite in_flat_map. split.
  - intros (x & Hx & Hy). destruct x as [c' m o'| | | | | | | | | | | | | | | | | |]; try contradiction. destruct (Nat.eqb_spec c' c) as [->|]; [|contradiction]. cbn [andb] in Hy.
    destruct (f o') eqn:F; [|contradiction]. destruct Hy as [[= <- <-]|[]]. auto.
  - intros [I F]. exists (OIssue c n o). split; [exact I|]. cbn. rewrite Nat.eqb_refl, F. now left.
Qed.
Lemma picks_snd c f l : map snd (picks c f l) = filter f (requests c l).
Proof.
  induction l as [|x l IH]; [reflexivity|]. unfold picks, requests in *. cbn [flat_map]. rewrite map_app, filter_app, IH. f_equal.
  destruct x as [c' n o| | | | | | | | | | | | | | | | | |]; try reflexivity. destruct (c' =? c)%nat; [|reflexivity]. cbn. now destruct (f o).
Qed.
Lemma picks_all c l : map fst (picks c (fun _ => true) l) = issued c l.
Proof.
  induction l as [|x l IH]; [reflexivity|]. unfold picks, issued in *. cbn [flat_map]. rewrite map_app, IH. f_equal.
  destruct x as [c' n o| | | | | | | | | | | | | | | | | |]; try reflexivity. now destruct (c' =? c)%nat.
Qed.
Lemma picks_filter c f l : picks c f l = filter (fun p => f (snd p)) (picks c (fun _ => true) l).
Proof.
  induction l as [|x l IH]; [reflexivity|]. unfold picks in *. cbn [flat_map]. rewrite filter_app, <- IH. f_equal.
  destruct x as [c' n o| | | | | | | | | | | | | | | | | |]; try reflexivity. destruct (c' =? c)%nat; [|reflexivity]. cbn. now destruct (f o).
Qed.
Lemma picks_split c f l : forall P1 x P2, picks c f l = P1 ++ x :: P2 -> exists l1 l2, l = l1 ++ OIssue c (fst x) (snd x) :: l2 /\ f (snd x) = true /\ picks c f l1 = P1.
Proof.
  induction l as [|y l IH]; intros P1 x P2 Ep; [destruct P1; discriminate|].
  change (y :: l) with ([y] ++ l) in Ep. rewrite picks_app in Ep.
  assert (D : picks c f [y] = [] \/ exists n o, y = OIssue c n o /\ f o = true /\ picks c f [y] = [(n, o)]).
  { destruct y as [c' n o| | | | | | | | | | | | | | | | | |]; try (left; reflexivity). unfold picks. cbn. destruct (Nat.eqb_spec c' c) as [->|]; [|now left]. destruct (f o) eqn:F; [|now left]. right. eauto. }
  destruct D as [D|(n & o & -> & F & D)].
  - rewrite D in Ep. destruct (IH _ _ _ Ep) as (l1 & l2 & -> & Fx & <-). exists (y :: l1), l2. split; [reflexivity|]. split; [exact Fx|].
    change (y :: l1) with ([y] ++ l1). now rewrite picks_app, D.
  - rewrite D in Ep. destruct P1 as [|p P1].
    + cbn in Ep. injection Ep as <- Ep. exists [], l. auto.
    + cbn in Ep. injection Ep as <- Ep. destruct (IH _ _ _ Ep) as (l1 & l2 & -> & Fx & <-). exists (OIssue c n o :: l1), l2. split; [reflexivity|]. split; [exact Fx|].
      change (OIssue c n o :: l1) with ([OIssue c n o] ++ l1). now rewrite picks_app, D.
Qed.
Lemma subseq_pick f (M : list (nat * outbound)) : forall ns, subseq ns (map fst M) -> NoDup (map fst M) -> (forall n, In n ns -> exists o, In (n, o) M /\ f o = true) ->
  subseq ns (map fst (filter (fun p => f (snd p)) M)).
Proof.
  induction M as [|[n0 o0] M IH]; intros ns S Nd F; [exact S|]. cbn [map fst] in *. inversion Nd as [|? ? N1 N2]; subst.
  assert (Tl : forall n o, In (n, o) ((n0, o0) :: M) -> In n (map fst M) -> In (n, o) M).
  { intros n o [[= <- <-]|X] Y; [contradiction|exact X]. }
  inversion S as [|x ns' ? S'|? ? ? S']; subst; [constructor| |].
  - destruct (F n0 (or_introl eq_refl)) as (o & [[= <-]|X] & Fo).
    + cbn [filter snd]. rewrite Fo. cbn [map fst]. constructor. apply IH; auto. intros n X. destruct (F n (or_intror X)) as (o & A & B). exists o. split; [|exact B]. apply Tl; [exact A|]. eapply subseq_in; eauto.
    + exfalso. apply N1. change n0 with (fst (n0, o)). now apply in_map.
  - assert (Y : subseq ns (map fst (filter (fun p => f (snd p)) M))).
    { apply IH; auto. intros n X. destruct (F n X) as (o & A & B). exists o. split; [|exact B]. apply Tl; [exact A|]. eapply subseq_in; eauto. }
    cbn [filter snd]. destruct (f o0); [cbn [map]; now constructor|exact Y].
Qed.
(** A part of a list that has every element but perhaps the last is an initial part. *)
Lemma all_but_last {A} (P : list A) : forall ns, subseq ns P -> NoDup P -> (forall P1 x P2, P = P1 ++ x :: P2 -> forall y, In y P1 -> In y ns) -> ns = firstn (length ns) P.
Proof.
  induction P as [|x Q IH]; intros ns S Nd F; [inversion S; reflexivity|]. inversion Nd as [|? ? N1 N2]; subst. inversion S as [|? ns' ? S'|? ? ? S']; subst; [reflexivity| |].
  - cbn [length firstn]. f_equal. apply IH; auto. intros P1 z P2 Eq y Y. destruct (F (x :: P1) z P2 (f_equal (fun q => x :: q) Eq) y (or_intror Y)) as [->|X]; [|exact X].
    exfalso. apply N1. rewrite Eq. apply in_app_iff. now left.
  - destruct Q as [|z Q]; [inversion S'; reflexivity|]. exfalso. apply N1. eapply subseq_in; [exact S'|]. apply (F [x] z Q eq_refl). now left.
Qed.
Lemma same_sources (M : list (nat * outbound)) : (forall n o o', In (n, o) M -> In (n, o') M -> o = o') ->
  forall R P, srcs R = map fst P -> (forall x, In x R -> exists n o, x = (Some n, o) /\ In (n, o) M) -> incl P M -> R = map (fun p => (Some (fst p), snd p)) P.
Proof.
  intros U. induction R as [|x R IH]; intros P Es F I.
  - destruct P; [reflexivity|discriminate].
  - destruct (F x (or_introl eq_refl)) as (n & o & -> & Hx). change (srcs ((Some n, o) :: R)) with (n :: srcs R) in Es. destruct P as [|[n' o'] P]; [discriminate|]. cbn in Es. injection Es as -> Es.
    cbn [map fst snd]. rewrite (U _ _ _ Hx (I (n', o') (or_introl eq_refl))). f_equal. apply IH; auto; [intros x X; apply F; now right|intros p X; apply I; now right].
Qed.
Lemma answered_spec l n : answered l n = true <-> exists ser i, In (OAnswer n ser i) l.
Proof.
  unfold answered. rewrite existsb_exists. split.
  - intros (x & Hx & Hy). destruct x; try discriminate. apply Nat.eqb_eq in Hy. subst. eauto.
  - intros (ser & i & X). exists (OAnswer n ser i). split; [exact X|apply Nat.eqb_refl].
Qed.
(** The requests of one kind that a client makes one by one: the broker has read exactly
    an initial part of them, with all that have completed. *)
Lemma loop_reads E io h s c id rs made more got (f : outbound -> bool) (g : msg_cmd -> bool) : let a := broker_of (e_cfg E) rs in
  reach E h s -> newids h <= 2 ^ 64 -> In (OReg c id) (s_log s) ->
  built id rs made -> requests c (s_log s) = made ++ more -> (forall cr, ~ In (OConnect cr) more) ->
  (forall b, clock_fits b h) -> (forall b n o, In (n, o) (queued b (s_log s)) -> sendable_request o) -> read_along E io h got ->
  (forall o, f o = true -> own id o = true) -> (forall now o mc, denotes now o mc -> g mc = f o) -> one_by_one c f (s_log s) ->
  (forall n o ser i, In (OIssue c n o) (s_log s) -> f o = true -> In (OAnswer n ser i) (s_log s) -> exists b o', In (Some n, o') (read_of E io got h b)) ->
  (exists j, (completed c f (s_log s) <= j <= length (filter f (requests c (s_log s))))%nat /\
     Forall2 (says (e_cfg E)) (firstn j (filter f (requests c (s_log s)))) (filter g (got h a))) /\
  forall b, b <> a -> filter g (got h b) = [].
Proof.
  intros a H Hn Rg Bu Rq Nm Ck Q Ra Fo Fg Tu Rd.
  destruct (along E io h s got h [] s H Ck Q Ra (eq_sym (app_nil_r h)) H) as (_ & _ & Al).
  pose proof (v_r E s (reach_all E h s H)) as R. set (l := s_log s) in *. set (M := picks c (fun _ => true) l).
  assert (Ui : forall n o o', In (n, o) M -> In (n, o') M -> o = o').
  { intros n o o' X Y. apply picks_in in X as [X _], Y as [Y _]. exact (proj2 (r_uniq s R _ _ _ _ _ X Y)). }
  assert (Nd : NoDup (map fst M)) by (unfold M; rewrite picks_all; exact (issued_nodup E h s c H)).
  set (S b := filter (fun x => f (snd x)) (read_of E io got h b)).
  assert (Rw : forall b x, In x (read_of E io got h b) -> In x (written b l)) by (intros b x X; apply (taken_written E b io h s H (Ck b) (Q b)), (firstn_In (length (got h b))); exact X).
  assert (F2 : forall b, Forall2 request_of (S b) (filter g (got h b))).
  { intros b. destruct (Al b) as [X _]. apply Forall2_filter; [|exact X]. intros x y (now & _ & D). symmetry. eapply Fg; eauto. }
  assert (El : forall b x, In x (S b) -> b = a /\ exists n o, x = (Some n, o) /\ In (n, o) (picks c f l)).
  { intros b x X. unfold S in X. apply filter_In in X as [X Fx]. apply Rw in X. pose proof (Fo _ Fx) as Ow.
    unfold written in X. apply in_flat_map in X as (y & Hy & X). destruct y as [| | | | | | |b' sr o ok| | | | | | | | | | |]; try contradiction.
    destruct (baddr_eqb b' b) eqn:B; [|contradiction]. apply baddr_eqb_spec in B. subst b'. destruct X as [<-|[]]. cbn [snd] in *.
    destruct sr as [n|]; [|apply (C40_engine_writes_pongs E h s) in Hy; [subst o; discriminate|exact H]].
    apply in_split in Hy as (l1 & l2 & Es). pose proof (reach_entries E h s H _ _ _ Es) as Y. cbn in Y.
    assert (Fw : In (OForward n b o) l) by (rewrite Es; apply in_app_iff; auto). pose proof (own_forward E h s c id n b o H Hn Rg Fw Ow) as Is.
    split; [|exists n, o; split; [reflexivity|apply picks_in; auto]].
    apply (own_goes E h s c id rs made more H Hn Bu Rq Nm n b o Fw Ow). apply (proj2 (PropRoute.issued_in _ _ _)). eauto. }
  split.
  2:{ intros b Hb. pose proof (F2 b) as X. destruct (S b) as [|x r] eqn:Sb; [now inversion X|]. destruct (El b x) as [Y _]; [rewrite Sb; now left|contradiction]. }
  set (P := picks c f l) in *.
  assert (Wp : map fst P = map fst (filter (fun p => f (snd p)) M)) by (unfold P; now rewrite picks_filter).
  assert (NdP : NoDup (map fst P)).
  { rewrite Wp. clear - Nd. induction M as [|p m IH]; [constructor|]. cbn [map] in Nd. inversion Nd as [|? ? A B]; subst. cbn [filter]. destruct (f (snd p)); [|auto]. cbn [map]. constructor; [|auto].
    intros X. apply A. apply in_map_iff in X as (q & <- & X). apply filter_In in X as [X _]. now apply in_map. }
  assert (Sub : subseq (srcs (S a)) (map fst P)).
  { rewrite Wp. apply subseq_pick; [|exact Nd|].
    - unfold M. rewrite picks_all.
      assert (Sw : subseq (srcs (S a)) (wrote a l)).
      { unfold l. rewrite <- srcs_written. apply subseq_srcs_mono. destruct (attempts_frames E a (io a) h s H (Ck a) (Q a)) as [<- _]. unfold S, read_of, taken_up.
        eapply subseq_trans; [apply filter_subseq|]. eapply subseq_trans; [apply firstn_subseq|]. apply subseq_map, filter_subseq. }
      assert (Sf : subseq (srcs (S a)) (wrote_for c a l)).
      { unfold wrote_for. apply subseq_filter; [exact Sw|]. intros n X. unfold srcs in X. apply in_flat_map in X as (x & X & Y). destruct (El a x X) as (_ & n' & o & -> & Pn). destruct Y as [<-|[]].
        apply picks_in in Pn as [Pn _]. apply is_in_spec. apply (proj2 (PropRoute.issued_in _ _ _)). eauto. }
      eapply subseq_of_filter. eapply subseq_trans; [exact Sf|]. apply initial_subseq. exact (C39_wire_order E h s c a H).
    - intros n X. unfold srcs in X. apply in_flat_map in X as (x & X & Y). destruct (El a x X) as (_ & n' & o & -> & Pn). destruct Y as [<-|[]].
      apply picks_in in Pn as [Pn Fn]. exists o. split; [|exact Fn]. apply picks_in. auto. }
  assert (Done : forall n o ser i, In (n, o) P -> In (OAnswer n ser i) l -> In n (srcs (S a))).
  { intros n o ser i X A. apply picks_in in X as [X Fn]. destruct (Rd n o ser i X Fn A) as (b & o' & Y).
    assert (In (Some n, o') (S b)).
    { unfold S. apply filter_In. split; [exact Y|]. cbn [snd]. apply Rw in Y. unfold written in Y. apply in_flat_map in Y as (y & Hy & Y). destruct y as [| | | | | | |b' sr o1 ok| | | | | | | | | | |]; try contradiction.
      destruct (baddr_eqb b' b) eqn:B; [|contradiction]. destruct Y as [[= -> ->]|[]].
      destruct (C39_commands_unchanged E h s b' n o' ok H Hy) as (q & (c1 & Q1) & X1). destruct (r_uniq s R _ _ _ _ _ X Q1) as [_ <-].
      destruct o; try (rewrite X1; exact Fn). exfalso. pose proof (Fo _ Fn). discriminate. }
    destruct (El b _ H0) as [-> _]. unfold srcs. apply in_flat_map. exists (Some n, o'). split; [exact H0|now left]. }
  assert (Ini : srcs (S a) = firstn (length (srcs (S a))) (map fst P)).
  { apply all_but_last; [exact Sub|exact NdP|]. intros P1 x P2 Ep y Y.
    apply map_eq_app in Ep as (p1 & p2 & Ep & <- & E2). destruct p2 as [|p p2]; [discriminate|]. cbn in E2. injection E2 as <- <-.
    destruct (picks_split c f l p1 p p2 Ep) as (l1 & l2 & Es & Fx & E1). apply in_map_iff in Y as ([m o'] & <- & Y). rewrite <- E1 in Y. apply picks_in in Y as [Y1 Y2].
    destruct (Tu l1 (fst p) (snd p) l2 Es Fx m o' Y1 Y2) as (ser & i & An). cbn [fst]. apply (Done m o' ser i).
    - apply picks_in. split; [rewrite Es; apply in_app_iff; now left|exact Y2].
    - rewrite Es. apply in_app_iff. now left. }
  set (j := length (srcs (S a))) in *. exists j.
  assert (Lj : (j <= length P)%nat).
  { assert (X : length (srcs (S a)) = length (firstn j (map fst P))) by (rewrite <- Ini; reflexivity). rewrite firstn_length, map_length in X. fold j in X. lia. }
  split.
  - split; [|rewrite <- picks_snd, map_length; exact Lj]. unfold completed. fold P. rewrite <- (map_length fst). apply NoDup_incl_length.
    + clear - NdP. induction P as [|p m IH]; [constructor|]. cbn [map] in NdP. inversion NdP as [|? ? A B]; subst. cbn [filter]. destruct (answered l (fst p)); [|auto]. cbn [map]. constructor; [|auto].
      intros X. apply A. apply in_map_iff in X as (q & <- & X). apply filter_In in X as [X _]. now apply in_map.
    + intros n X. apply in_map_iff in X as ([n' o] & <- & X). apply filter_In in X as [X An]. cbn [fst] in *. apply answered_spec in An as (ser & i & An). eapply Done; eauto.
  - assert (Eq : S a = map (fun p => (Some (fst p), snd p)) (firstn j P)).
    { apply (same_sources M); [exact Ui|now rewrite <- firstn_map| |].
      - intros x X. destruct (El a x X) as (_ & n & o & -> & Pn). exists n, o. split; [reflexivity|]. apply picks_in in Pn as [Pn _]. apply picks_in. auto.
      - intros [n o] X. apply firstn_In in X. apply picks_in in X as [X _]. apply picks_in. auto. }
    pose proof (F2 a) as X. rewrite Eq in X. rewrite <- picks_snd, firstn_map. fold P.
    assert (Ok : forall p, In p (firstn j P) -> own id (snd p) = true) by (intros [n o] Y; apply firstn_In in Y; apply picks_in in Y as [_ Y]; now apply Fo).
    clear - X Ok. revert X. generalize (filter g (got h a)). induction (firstn j P) as [|p m IH]; intros ys X; inversion X as [|? y ? ys' (now & Hw & D) X']; subst; [constructor|].
    cbn [map]. constructor; [|apply IH; auto; intros q Y; apply Ok; now right]. exists now. split; [exact Hw|]. cbn [snd] in D. specialize (Ok p (or_introl eq_refl)). destruct (snd p); try discriminate; exact D.
Qed.

Lemma denotes_ack id now o mc : denotes now o mc -> ack_by id mc = ack_of id o.
Proof.
  intros D.
  assert (Z : forall ty k s0, carries mc ty k s0 -> ty <> 10%Z -> ack_by id mc = false).
  { intros ty k s0 (X & _) Hne. unfold ack_by. rewrite X. destruct (Z.eq_dec ty 10) as [->|Ne]; [contradiction|].
    clear X. destruct ty as [|p|p]; try reflexivity. repeat (destruct p as [p|p|]; try reflexivity). now elim Ne. }
  destruct o as [| | |p|acks| | | | |]; cbn [denotes ack_of] in *;
    try (decompose [and ex] D; match goal with X : carries mc _ _ _ |- _ => apply (Z _ _ _ X); discriminate end).
  destruct D as (_ & s & a & Ha & (D1 & D2 & _) & D3 & _). unfold ack_by. rewrite D1, D2. unfold int_field in D3. rewrite D3.
  destruct acks as [|x l]; [discriminate|]. cbn in Ha. injection Ha as ->. apply same_number.
Qed.
(** If only one client makes requests of kind [k], and makes them one by one, no two of
    them are in flight together. *)
Theorem C78_alone : forall E h s c f k, reach E h s -> one_by_one c f (s_log s) ->
  (forall c' n o, In (OIssue c' n o) (s_log s) -> kind_of o = Some k -> c' = c /\ f o = true) -> no_collision_of k (s_log s).
Proof.
  intros E h s c f k H Tu On l1 n l2 m o El [c1 I1] K (o' & [c2 I2] & K' & _ & Tm & Ns).
  pose proof (v_r E s (reach_all E h s H)) as R.
  assert (Up : forall x, In x l1 -> In x (s_log s)) by (intros x X; rewrite El; apply in_app_iff; now left).
  destruct (On c1 n o (Up _ I1) K) as [-> Fo]. destruct (On c2 m o' (Up _ I2) K') as [-> Fo'].
  assert (Nt : ~ In n (takes l1)).
  { pose proof (r_tknd s R) as N. rewrite El in N. unfold takes in N |- *. rewrite flat_map_app in N. cbn [flat_map app] in N. intros X. apply NoDup_remove_2 in N. apply N. apply in_app_iff. now left. }
  assert (Nm : n <> m) by (intros ->; contradiction).
  apply in_split in I1 as (p1 & p2 & E1). rewrite E1 in I2. apply in_app_iff in I2 as [I2|[I2|I2]].
  - assert (Z : s_log s = p1 ++ OIssue c n o :: (p2 ++ OTake n :: l2)) by (rewrite El, E1, <- app_assoc; reflexivity).
    destruct (Tu _ _ _ _ Z Fo m o' I2 Fo') as (ser & i & A).
    apply Ns. rewrite E1. unfold settled. rewrite flat_map_app. apply in_app_iff. left. apply in_flat_map. exists (OAnswer m ser i). split; [exact A|now left].
  - injection I2 as X _. now elim Nm.
  - apply in_split in I2 as (p3 & p4 & ->).
    assert (Z : s_log s = (p1 ++ OIssue c n o :: p3) ++ OIssue c m o' :: (p4 ++ OTake n :: l2)) by (rewrite El, E1, <- !app_assoc; cbn; rewrite <- app_assoc; reflexivity).
    destruct (Tu _ _ _ _ Z Fo' n o (in_elt _ _ _) Fo) as (ser & i & A).
    apply in_split in A as (q1 & q2 & Eq).
    assert (Es : s_log s = q1 ++ OAnswer n ser i :: (q2 ++ OIssue c m o' :: p4 ++ OTake n :: l2)).
    { rewrite El, E1. change (OIssue c n o :: p3 ++ OIssue c m o' :: p4) with ((OIssue c n o :: p3) ++ OIssue c m o' :: p4). rewrite app_assoc, Eq, <- !app_assoc. reflexivity. }
    destruct (reach_entries E h s H _ _ _ Es) as (l0 & a & i0 & key & -> & _ & _ & W). destruct W as (ow & _ & _ & _ & Tk & _).
    apply Nt. rewrite E1. change (OIssue c n o :: p3 ++ OIssue c m o' :: p4) with ((OIssue c n o :: p3) ++ OIssue c m o' :: p4). rewrite app_assoc, Eq. unfold takes in *. rewrite !flat_map_app. rewrite !in_app_iff. auto.
Qed.
Print Assumptions C78_alone.

(** What a built consumer has returned is an initial part of the messages of its
    subscription that have arrived. *)
Lemma returned_arrived T (value : bytes -> option T) E h s c id name topic sub permits rs made more hc cs : let a := broker_of (e_cfg E) rs in
  reach E h s -> newids h <= 2 ^ 64 -> In (OReg c id) (s_log s) ->
  exec (consumer_connect id name topic sub permits Client.fresh) rs = (made, Some (Ok tt)) -> requests c (s_log s) = made ++ more -> (forall cr, ~ In (OConnect cr) more) ->
  only_after_subscribe c id (s_log s) ->
  only_next_message hc -> reaches value permits hc cs ->
  initial (SpecConsumer.arrivals hc) (gots c (s_log s) ++ (if ch_client (s_ch s c) then ch_down (s_ch s c) else [])) ->
  initial (returned (c_log cs)) (stream value (map InMessage (messages_for id (events (nets a h))))).
Proof.
  intros a H Hn Rg X Rq Nm Oa On Re [ra Ar].
  destruct (built_settled E (s_log s) c id name topic sub permits rs made more X Rq Nm) as [Ord Ea]. fold a in Ea.
  pose proof (inbox_all E h s c id a H Hn Rg Oa Ord Ea) as In1.
  destruct (C38_received_in_order E h s c H Hn) as [Ri Rc]. fold (svc E) in Ri, Rc. rewrite look_gots in Ri, Rc.
  destruct (C38_taken_in_order E h s a H) as [[rt Ti] _]. rewrite (reach_nets E h s a H) in Ti.
  assert (Y : initial (messages (gots c (s_log s) ++ (if ch_client (s_ch s c) then ch_down (s_ch s c) else []))) (messages_for id (events (nets a h)))).
  { rewrite Ti, messages_for_app, <- In1, messages_app. destruct (ch_client (s_ch s c)) eqn:Cl.
    - rewrite <- (Rc eq_refl). now eexists.
    - cbn [messages flat_map]. rewrite app_nil_r. eapply initial_trans; [exact Ri|]. now eexists. }
  destruct Y as [ry Y]. rewrite Y, map_app, PropStack.stream_app, <- stream_messages, Ar, PropStack.stream_app, <- (C25_exactly_once_in_order T value permits hc cs On Re), <- !app_assoc. now eexists.
Qed.
Lemma filter_acks id T (ms : list (cmsg T)) cfg : forall more ys,
  (forall o, In o more -> (exists n, o = OFlow id n) \/ exists mid rid, o = OAck [mk_ack id mid rid]) ->
  initial (acked more) (map cm_ack ms) -> forall j, Forall2 (says cfg) (firstn j (filter (ack_of id) more)) ys ->
  (length (filter (ack_of id) more) <= length ms)%nat /\ Forall2 (acknowledges id) (firstn (length ys) ms) ys.
Proof.
  induction ms as [|m ms IH]; intros more.
  - intros ys Sh [r I] j F. assert (filter (ack_of id) more = []) as Z.
    { assert (A : acked more = []) by (destruct (acked more); [reflexivity|discriminate]). clear - Sh A. induction more as [|o l IHl]; [reflexivity|]. unfold acked in *. cbn [flat_map] in A. apply app_eq_nil in A as [A1 A2].
      destruct (Sh o (or_introl eq_refl)) as [[n ->]|(mid & rid & ->)]; [|discriminate]. cbn. apply IHl; auto. intros x X. apply Sh. now right. }
    rewrite Z in *. rewrite firstn_nil in F. inversion F; subst. split; [cbn; lia|constructor].
  - induction more as [|o more IHm]; intros ys Sh I j F.
    + cbn [filter] in F. rewrite firstn_nil in F. inversion F; subst. split; [cbn; lia|constructor].
    + assert (Sh' : forall x, In x more -> (exists n, x = OFlow id n) \/ exists mid rid, x = OAck [mk_ack id mid rid]) by (intros x X; apply Sh; now right).
      destruct (Sh o (or_introl eq_refl)) as [[n ->]|(mid & rid & ->)].
      * cbn [filter ack_of] in F |- *. change (acked (OFlow id n :: more)) with (acked more) in I. eapply IHm; eauto.
      * change (acked (OAck [mk_ack id mid rid] :: more)) with (mid :: acked more) in I. destruct I as [r I]. cbn [map app] in I. injection I as Em I.
        cbn [filter ack_of ak_cid] in F |- *. rewrite N.eqb_refl in F |- *. destruct j as [|j].
        -- cbn in F. inversion F; subst. split; [|constructor]. destruct (IH more [] Sh' (ex_intro _ r I) 0%nat) as [L _]; [constructor|]. cbn [length]. lia.
        -- cbn [firstn] in F. inversion F as [|? y ? ys' (now & _ & D) F']; subst. destruct (IH more ys' Sh' (ex_intro _ r I) j F') as [L G]. split; [cbn [length]; lia|].
           cbn [length firstn]. constructor; [|exact G]. cbn [denotes] in D. destruct D as (_ & x & ak & Hk & Cx & F1 & _ & F2 & F3). cbn in Hk. injection Hk as <-. cbn in F1, F2, F3. exists x. auto.
Qed.
(** A consumer has been built on client [c]; the application calls next_message and
    acknowledges the messages in the order in which they are returned, each only when
    the acknowledgement before has returned Ok. The brokers answer what they have read,
    send messages for a consumer only where it was subscribed; no other consumer's
    acknowledgement is in flight with one of these. Whatever the transports do, whatever
    part of the bytes the brokers have read: the acknowledgements of this consumer its
    broker has read are those of exactly the first [j] messages it has sent to it, in
    that order and each once, where [j] is at least the number of acknowledgements that
    have returned Ok and at most the number of messages returned. No other connection
    carries any. *)
Theorem C78_loop_acknowledges : forall T (value : bytes -> option T) E io h s c id name topic sub permits rs made more hc cs got,
  let a := broker_of (e_cfg E) rs in
  reach E h s -> newids h <= 2 ^ 64 -> In (OReg c id) (s_log s) ->
  exec (consumer_connect id name topic sub permits Client.fresh) rs = (made, Some (Ok tt)) -> requests c (s_log s) = made ++ more ->
  (forall o, In o more -> (exists n, o = OFlow id n) \/ (exists mid rid, o = OAck [mk_ack id mid rid])) ->
  only_next_message hc -> reaches value permits hc cs ->
  initial (SpecConsumer.arrivals hc) (gots c (s_log s) ++ (if ch_client (s_ch s c) then ch_down (s_ch s c) else [])) ->
  initial (acked more) (map cm_ack (returned (c_log cs))) -> one_by_one c (ack_of id) (s_log s) ->
  only_after_subscribe c id (s_log s) ->
  (forall b, clock_fits b h) -> (forall b n o, In (n, o) (queued b (s_log s)) -> sendable_request o) -> read_along E io h got ->
  answers_reads KAck h got -> no_collision_of KAck (s_log s) ->
  (exists j, (completed c (ack_of id) (s_log s) <= j <= length (returned (c_log cs)))%nat /\
     Forall2 (acknowledges id) (firstn j (stream value (map InMessage (messages_for id (events (nets a h)))))) (filter (ack_by id) (got h a))) /\
  forall b, b <> a -> filter (ack_by id) (got h b) = [].
Proof.
  intros T value E io h s c id name topic sub permits rs made more hc cs got a H Hn Rg X Rq Mo On Re Ar Ak Tu Oa Ck Q Ra An Nc.
  assert (Nm : forall cr, ~ In (OConnect cr) more) by (intros cr Y; destruct (Mo _ Y) as [[n Z]|(mid & rid & Z)]; discriminate).
  assert (Bu : built id rs made) by (left; eauto).
  destruct (loop_reads E io h s c id rs made more got (ack_of id) (ack_by id) H Hn Rg Bu Rq Nm Ck Q Ra) as [(j & [J1 J2] & F) Ot].
  - intros o Y. destruct o as [| | | |[|x l]| | | | |]; try discriminate. exact Y.
  - intros now o mc. apply denotes_ack.
  - exact Tu.
  - intros n o ser i Is Fo A. destruct (completed_read E io h s got KAck n o ser i H Ck Q Ra An Nc) as (b & _ & o' & _ & _ & _ & Y & _); eauto; [now exists c|].
    destruct o as [| | | |[|x l]| | | | |]; try discriminate. reflexivity.
  - split; [|exact Ot]. fold a in F. rewrite Rq, filter_app in J2, F.
    assert (Em : filter (ack_of id) made = []) by (apply built_shape in X; subst made; destruct (asks_proxy rs); reflexivity). rewrite Em in J2, F. cbn [app] in J2, F.
    destruct (filter_acks id T (returned (c_log cs)) (e_cfg E) more _ Mo Ak j F) as [L G].
    assert (Lj : length (filter (ack_by id) (got h a)) = j) by (rewrite <- (Forall2_len _ _ _ F), firstn_length; lia). rewrite Lj in G.
    exists j. split; [lia|]. destruct (returned_arrived T value E h s c id name topic sub permits rs made more hc cs H Hn Rg X Rq Nm Oa On Re Ar) as [r Er]. fold a in Er. rewrite Er, firstn_app.
    replace (j - length (returned (c_log cs)))%nat with 0%nat by lia. cbn [firstn]. rewrite app_nil_r. exact G.
Qed.
Print Assumptions C78_loop_acknowledges.

(** A producer has been built on client [c]; the application makes the calls [cs] of send
    and send_batch, each only when the one before has returned Ok. The send commands of
    this producer its broker has read are exactly the first [j] of them, in order, each
    once and unchanged, where [j] is at least the number of sends that have returned Ok. *)
Theorem C78_loop_sends : forall E io h s c id name topic rs made cs got, let a := broker_of (e_cfg E) rs in
  reach E h s -> newids h <= 2 ^ 64 -> In (OReg c id) (s_log s) ->
  exec (producer_connect id name topic Client.fresh) rs = (made, Some (Ok tt)) -> requests c (s_log s) = made ++ sent_as id name 0 cs ->
  one_by_one c (send_from id) (s_log s) ->
  (forall b, clock_fits b h) -> (forall b n o, In (n, o) (queued b (s_log s)) -> sendable_request o) -> read_along E io h got ->
  (forall seq, answers_reads (KSend seq) h got) -> (forall seq, no_collision_of (KSend seq) (s_log s)) ->
  (exists j, (completed c (send_from id) (s_log s) <= j <= length (sent_as id name 0 cs))%nat /\
     Forall2 (says (e_cfg E)) (firstn j (sent_as id name 0 cs)) (filter (sends_of id) (got h a))) /\
  forall b, b <> a -> filter (sends_of id) (got h b) = [].
Proof.
  intros E io h s c id name topic rs made cs got a H Hn Rg X Rq Tu Ck Q Ra An Nc.
  assert (Ms : forall o, In o (sent_as id name 0 cs) -> exists p, o = OSend p /\ send_pid p = id).
  { clear. generalize 0. induction cs as [|k l IH]; intros i o; [intros []|]. destruct k; cbn [sent_as In]; try apply IH.
    - intros [<-|Y]; [eexists; split; reflexivity|eauto].
    - intros [<-|Y]; [eexists; split; reflexivity|eauto]. }
  assert (Nm : forall cr, ~ In (OConnect cr) (sent_as id name 0 cs)) by (intros cr Y; destruct (Ms _ Y) as (p & Z & _); discriminate).
  assert (Bu : built id rs made) by (right; eauto).
  destruct (loop_reads E io h s c id rs made _ got (send_from id) (sends_of id) H Hn Rg Bu Rq Nm Ck Q Ra) as [(j & [J1 J2] & F) Ot].
  - intros o Y. destruct o; try discriminate. exact Y.
  - intros now o mc. apply denotes_send.
  - exact Tu.
  - intros n o ser i Is Fo A. assert (exists q, kind_of o = Some (KSend q)) as [q K] by (destruct o as [| | |[]| | | | | |]; try discriminate; cbn; eauto).
    destruct (completed_read E io h s got (KSend q) n o ser i H Ck Q Ra (An q) (Nc q)) as (b & _ & o' & _ & _ & _ & Y & _); eauto. now exists c.
  - split; [|exact Ot]. fold a in F. rewrite Rq, filter_app in J2, F.
    assert (Em : filter (send_from id) made = []) by (apply producer_shape in X; subst made; destruct (asks_proxy rs); reflexivity). rewrite Em in J2, F. cbn [app] in J2, F.
    assert (Ef : filter (send_from id) (sent_as id name 0 cs) = sent_as id name 0 cs).
    { revert Ms. generalize (sent_as id name 0 cs). induction l as [|o l IH]; intros Ms; [reflexivity|]. cbn [filter]. destruct (Ms o (or_introl eq_refl)) as (p & -> & Pp). cbn [send_from]. rewrite Pp, N.eqb_refl. f_equal. apply IH. intros x Y. apply Ms. now right. }
    rewrite Ef in J2, F. eauto.
Qed.
Print Assumptions C78_loop_sends.

(** A consumer behind the proxy is sent a batch of two messages; it returns both. The
    first acknowledgement has returned Ok, the second has been written, and the broker
    has read both. *)
Definition l_a0 : outbound := OAck [mk_ack 0 [(1, PInt 7); (2, PInt 8); (4, PInt 0)] 3].
Definition l_a1 : outbound := OAck [mk_ack 0 [(1, PInt 7); (2, PInt 8); (4, PInt 1)] 4].
Definition l_events : list event := firstn 34 w_events ++
  [EvNet xP r_batch; EvConn xP; EvRecv 0%nat; EvIssue 0%nat l_a0; EvClient 0%nat; EvWrite xP 0 true; EvNet xP (f_ack 0); EvConn xP;
   EvIssue 0%nat l_a1; EvClient 0%nat; EvWrite xP 0 true].
Definition l_log : list obs := Eval vm_compute in log_of l_events.
Lemma l_log_eq : log_of l_events = l_log. Proof. vm_compute. reflexivity. Qed.
Lemma l_writes b : writes_succeed xE b (z_io b) l_events.
Proof.
  split; [|intros now ok X; unfold l_events, w_events in X; cbn [firstn app In] in X; PropReceipt.walk X; injection X as _ <- _; reflexivity].
  destruct (baddr_dec b xA) as [->|N]; [apply all_ok_check; vm_compute; reflexivity|].
  destruct (baddr_dec b xP) as [->|N2]; [apply all_ok_check; vm_compute; reflexivity|].
  intros x X. exfalso. rewrite no_offers in X; [destruct X|]. clear X. intros now ok Y. unfold l_events, w_events in Y; cbn [firstn app In] in Y; PropReceipt.walk Y; injection Y; intros _ _ Y'; (now apply N) || (now apply N2).
Qed.
Lemma l_ack_fits i r : i = 0%Z /\ r = 3 \/ i = 1%Z /\ r = 4 -> sendable_request (OAck [mk_ack 0 [(1, PInt 7); (2, PInt 8); (4, PInt i)] r]).
Proof.
  intros D. split; [|split; [destruct D as [[-> ->]|[-> ->]]; vm_compute; reflexivity|discriminate]]. cbn [req_ok]. apply Forall_cons; [|apply Forall_nil].
  destruct D as [[-> ->]|[-> ->]]; (split; [vm_compute; reflexivity|]; split; [split; vm_compute; reflexivity|vm_compute; reflexivity]).
Qed.
Lemma l_sendable a m o : In (m, o) (SpecEngine.queued a l_log) -> sendable_request o.
Proof.
  intros X. unfold SpecEngine.queued in X. apply in_flat_map in X as (x & Hx & Hy).
  assert (S : Forall (fun x => match x with OForward _ _ o => sendable_request o | _ => True end) l_log).
  { unfold l_log. repeat (apply Forall_cons; [solve [exact I|exact (l_ack_fits 0 3 (or_introl (conj eq_refl eq_refl)))|exact (l_ack_fits 1 4 (or_intror (conj eq_refl eq_refl)))|x_fit]|]). apply Forall_nil. }
  rewrite Forall_forall in S. specialize (S x Hx).
  destruct x as [| | | | |n b o1| | | | | | | | | | | | |]; try contradiction.
  - destruct (baddr_eqb b a); [|contradiction]. destruct Hy as [[= _ <-]|[]]. exact S.
  - exfalso. unfold l_log in Hx. cbn [In] in Hx. PropReceipt.walk Hx.
Qed.
Lemma l_causal : only_after_subscribe 0%nat 0 l_log.
Proof.
  unfold l_log. intros l1 b ser d l2 El D. splits El; try discriminate D.
  all: exists 4%nat, (str "t"), (str "s"), 2, Shared, true; split; cbn [In]; repeat (first [now left|right]).
Qed.
Lemma l_turns : one_by_one 0%nat (ack_of 0) l_log.
Proof.
  unfold l_log. intros l1 n o l2 El F m o' I F'. splits El; try discriminate F.
  all: cbn [In] in I; PropReceipt.walk I; injection I as <- <-; try discriminate F'.
  all: eexists _, _; cbn [In]; repeat (first [left; reflexivity|right]).
Qed.
Example C78_loop_acknowledges_meets : exists s cs, let a := broker_of (e_cfg xE) x_rs in let got := read_everything xE z_io in
  a = xP /\ reach xE l_events s /\ newids l_events <= 2 ^ 64 /\ In (OReg 0%nat 0) (s_log s) /\
  exec (consumer_connect 0 (str "n") (str "t") (str "s") 250 Client.fresh) x_rs = (x_made, Some (Ok tt)) /\ requests 0%nat (s_log s) = x_made ++ [l_a0; l_a1] /\
  only_next_message r_hc /\ reaches (fun b => Some b) 250 r_hc cs /\
  initial (SpecConsumer.arrivals r_hc) (gots 0%nat (s_log s) ++ (if ch_client (s_ch s 0%nat) then ch_down (s_ch s 0%nat) else [])) /\
  initial (acked [l_a0; l_a1]) (map cm_ack (returned (c_log cs))) /\ one_by_one 0%nat (ack_of 0) (s_log s) /\
  only_after_subscribe 0%nat 0 (s_log s) /\
  (forall b, clock_fits b l_events) /\ (forall b n o, In (n, o) (SpecEngine.queued b (s_log s)) -> sendable_request o) /\ read_along xE z_io l_events got /\
  answers_reads KAck l_events got /\ no_collision_of KAck (s_log s) /\
  completed 0%nat (ack_of 0) (s_log s) = 1%nat /\ length (filter (ack_by 0) (got l_events a)) = 2%nat.
Proof.
  destruct (log_reach l_events) as (s & R & L); [rewrite l_log_eq; discriminate|]. rewrite l_log_eq in L.
  destruct (crun_some r_hc (fun cs => map cm_ack (returned (c_log cs)) = acked [l_a0; l_a1])) as (cs & RC & C); [vm_compute; reflexivity|].
  assert (Sd : forall b n o, In (n, o) (SpecEngine.queued b (s_log s)) -> sendable_request o) by (rewrite L; apply l_sendable).
  exists s, cs. cbv zeta. change (broker_of (e_cfg xE) x_rs) with xP. split; [reflexivity|]. split; [exact R|]. split; [vm_compute; discriminate|].
  split; [rewrite L; unfold l_log; cbn [In]; repeat (first [left; reflexivity|right])|]. split; [exact x_made_eq|]. split; [rewrite L; vm_compute; reflexivity|].
  split; [|split; [exact RC|]].
  { intros i o X. unfold r_hc in X. cbn [In] in X. PropReceipt.walk X; injection X; auto. }
  split; [rewrite L; replace (gots 0%nat l_log) with (SpecConsumer.arrivals r_hc) by (vm_compute; reflexivity); now eexists|].
  split; [rewrite C; exists []; symmetry; apply app_nil_r|]. split; [rewrite L; exact l_turns|]. split; [rewrite L; exact l_causal|].
  split; [intros b; exact (proj2 (l_writes b))|]. split; [exact Sd|]. split; [exact (everything_along xE z_io l_events s R l_writes Sd)|].
  split; [|split].
  - apply (answers_check KAck l_events s R l_writes Sd); [|vm_compute; reflexivity|vm_compute; reflexivity].
    intros b x X. unfold l_events, w_events in X; cbn [firstn app In] in X; PropReceipt.walk X; injection X as <- _; auto.
  - apply (C78_alone xE l_events s 0%nat (ack_of 0) KAck R); [rewrite L; exact l_turns|]. intros c' n o X K. rewrite L in X. unfold l_log in X. cbn [In] in X. PropReceipt.walk X; injection X as <- <- <-; try discriminate K; auto.
  - split; [rewrite L; vm_compute; reflexivity|vm_compute; reflexivity].
Qed.
(** A producer has sent one message and the broker's receipt has returned; it then sends
    a batch of two, which the broker has read. *)
Definition k_events : list event := firstn (length x_reg2 + 20) v_events ++
  [EvIssue 0%nat v_s1; EvClient 0%nat; EvWrite xA 7 true; EvNet xA (f_receipt 0 0); EvConn xA; EvIssue 0%nat v_s2; EvClient 0%nat; EvWrite xA 8 true].
Definition k_log : list obs := Eval vm_compute in log_of k_events.
Lemma k_log_eq : log_of k_events = k_log. Proof. vm_compute. reflexivity. Qed.
Lemma k_writes b : writes_succeed xE b (z_io b) k_events.
Proof.
  split; [|intros now ok X; unfold k_events, v_events, x_reg2 in X; cbn [length plus firstn app In] in X; PropReceipt.walk X; injection X as _ <- _; reflexivity].
  destruct (baddr_dec b xA) as [->|N]; [apply all_ok_check; vm_compute; reflexivity|].
  intros x X. exfalso. rewrite no_offers in X; [destruct X|]. clear X. intros now ok Y. unfold k_events, v_events, x_reg2 in Y; cbn [length plus firstn app In] in Y; PropReceipt.walk Y; injection Y; intros _ _ Y'; apply N; symmetry; exact Y'.
Qed.
Lemma k_sendable a m o : In (m, o) (SpecEngine.queued a k_log) -> sendable_request o.
Proof.
  intros X. unfold SpecEngine.queued in X. apply in_flat_map in X as (x & Hx & Hy).
  assert (S : Forall (fun x => match x with OForward _ _ o => sendable_request o | _ => True end) k_log).
  { unfold k_log. repeat (apply Forall_cons; [solve [exact I|x_fit]|]). apply Forall_nil. }
  rewrite Forall_forall in S. specialize (S x Hx).
  destruct x as [| | | | |n b o1| | | | | | | | | | | | |]; try contradiction.
  - destruct (baddr_eqb b a); [|contradiction]. destruct Hy as [[= _ <-]|[]]. exact S.
  - exfalso. unfold k_log in Hx. cbn [In] in Hx. PropReceipt.walk Hx.
Qed.
Lemma k_turns : one_by_one 0%nat (send_from 0) k_log.
Proof.
  unfold k_log. intros l1 n o l2 El F m o' I F'. splits El; try discriminate F.
  all: cbn [In] in I; PropReceipt.walk I; injection I as <- <-; try discriminate F'.
  all: eexists _, _; cbn [In]; repeat (first [left; reflexivity|right]).
Qed.
Example C78_loop_sends_meets : exists s, let got := read_everything xE z_io in
  broker_of (e_cfg xE) v_rs = xA /\ reach xE k_events s /\ newids k_events <= 2 ^ 64 /\ In (OReg 0%nat 0) (s_log s) /\
  exec (producer_connect 0 (str "p") (str "t") Client.fresh) v_rs = (v_made, Some (Ok tt)) /\ requests 0%nat (s_log s) = v_made ++ sent_as 0 (str "p") 0 [CSend (str "x"); CSendBatch [str "y"; str "z"]] /\
  one_by_one 0%nat (send_from 0) (s_log s) /\
  (forall b, clock_fits b k_events) /\ (forall b n o, In (n, o) (SpecEngine.queued b (s_log s)) -> sendable_request o) /\ read_along xE z_io k_events got /\
  (forall seq, answers_reads (KSend seq) k_events got) /\ (forall seq, no_collision_of (KSend seq) (s_log s)) /\
  completed 0%nat (send_from 0) (s_log s) = 1%nat /\ length (filter (sends_of 0) (got k_events xA)) = 2%nat.
Proof.
  destruct (log_reach k_events) as (s & R & L); [rewrite k_log_eq; discriminate|]. rewrite k_log_eq in L.
  assert (Sd : forall b n o, In (n, o) (SpecEngine.queued b (s_log s)) -> sendable_request o) by (rewrite L; apply k_sendable).
  exists s. cbv zeta. split; [reflexivity|]. split; [exact R|]. split; [vm_compute; discriminate|].
  split; [rewrite L; unfold k_log; cbn [In]; repeat (first [left; reflexivity|right])|]. split; [vm_compute; reflexivity|]. split; [rewrite L; vm_compute; reflexivity|].
  split; [rewrite L; exact k_turns|].
  split; [intros b; exact (proj2 (k_writes b))|]. split; [exact Sd|]. split; [exact (everything_along xE z_io k_events s R k_writes Sd)|].
  split; [|split].
  - intros q. destruct (N.eq_dec q 0) as [->|Nq].
    + apply (answers_check (KSend 0) k_events s R k_writes Sd); [|vm_compute; reflexivity|vm_compute; reflexivity].
      intros b x X. unfold k_events, v_events, x_reg2 in X; cbn [length plus firstn app In] in X; PropReceipt.walk X; injection X as <- _; auto.
    + intros g1 g2 Eh b. assert (Z : filter (answersb (KSend q)) (inbounds (nets b g1)) = []); [|rewrite Z; cbn; lia].
      assert (Sub : forall i, In i (inbounds (nets b g1)) -> In i (inbounds (nets xA k_events))).
      { intros i Hi. unfold inbounds, nets in *. apply in_flat_map in Hi as (x & Hx & Hi). apply in_flat_map. exists x. split; [|exact Hi]. apply in_flat_map in Hx as (e & He & Hx). apply in_flat_map. exists e. split; [rewrite Eh; apply in_app_iff; now left|].
        assert (In e k_events) by (rewrite Eh; apply in_app_iff; now left). destruct e; try contradiction. assert (a = xA) as ->; [|rewrite baddr_eqb_refl; destruct (baddr_eqb xA b); [exact Hx|contradiction]].
        clear - H. unfold k_events, v_events, x_reg2 in H; cbn [length plus firstn app In] in H; PropReceipt.walk H; injection H as <- _; reflexivity. }
      assert (C : forall i, In i (inbounds (nets xA k_events)) -> answersb (KSend q) i = false).
      { let x := eval vm_compute in (inbounds (nets xA k_events)) in assert (V : inbounds (nets xA k_events) = x) by (vm_compute; reflexivity). rewrite V. intros i Hi. cbn [In] in Hi. PropReceipt.walk Hi; subst i; try reflexivity.
        unfold answersb. apply N.eqb_neq. intros Y. now apply Nq. }
      clear - Sub C. induction (inbounds (nets b g1)) as [|i l IH]; [reflexivity|]. cbn [filter]. rewrite (C i) by (apply Sub; now left). apply IH. intros j X. apply Sub. now right.
  - intros q. apply (C78_alone xE k_events s 0%nat (send_from 0) (KSend q) R); [rewrite L; exact k_turns|]. intros c' n o X K. rewrite L in X. unfold k_log in X. cbn [In] in X. PropReceipt.walk X; injection X as <- <- <-; try discriminate K; auto.
  - split; [rewrite L; vm_compute; reflexivity|vm_compute; reflexivity].
Qed.
