(** C84: when the brokers answer what they are sent, every call returns. *)
From Verif Require Import Bytes Errors Wire Proto Codec Address Message Client SpecKeys SpecClient Engine SpecEngine SpecEngine2 EngineFacts EngineInv EngineReq EngineEv EngineConn EngineLog EngineView EngineQueue EngineRoute EngineNet EngineGate EngineLife EngineHang EngineEx SpecTurn TurnFacts SpecStack SpecAnswered SpecLoop SpecRest SpecBuild PropMessage PropClient PropEngine PropEngine2 PropTurn PropReceipt PropRoute PropAnswered PropLoop PropRest PropDeliver.
Open Scope N_scope.
Open Scope nat_scope.

(** * A connect that has been written is completed by the answer on its connection *)
Lemma enters E s e s' a n : trans E s e s' -> s_phase s' = PConn a n Waiting ->
  s_phase s = PConn a n Waiting \/ exists l o, s_log s' = l ++ [OForward n a o].
Proof.
  intros T P.
  assert (W : forall ns w, w <> Waiting -> wake_ph ns w (s_phase s) = PConn a n Waiting -> s_phase s = PConn a n Waiting).
  { intros ns w Nw X. destruct (wake_ph_cases ns w (s_phase s)) as [Y|(b & m & _ & _ & Y)]; [congruence|]. rewrite Y in X. congruence. }
  cases T; cbn [s_phase with_phase stop fault say put_conn with_conns with_regs upd_ch with_ch with_ids with_counts with_clients] in P.
  all: try (rewrite stop_phase in P; discriminate P).
  all: try (left; exact P).
  all: try discriminate P.
  all: try (match type of P with (if ?b then _ else _) = _ => destruct b; [|discriminate P] end).
  all: try (cbn [is_connect] in P; injection P as <- <-; right; eexists _, _; reflexivity).
  all: try (left; eapply W; [|exact P]; discriminate).
  all: try (right; injection P as <- <-; eexists _, _; reflexivity).
  left. unfold dead, popped in P. cbn [s_phase with_phase put_conn with_conns k_res] in P.
  assert (Y : wake_ph (snd (put_item x (k_res k))) Lost (s_phase s) = PConn a n Waiting); [|eapply W; [|exact Y]; discriminate].
  destruct (wake_ph_cases (map snd (fst (put_item x (k_res k)))) Lost (wake_ph (snd (put_item x (k_res k))) Lost (s_phase s))) as [Y|(b & m & _ & _ & Y)]; [congruence|]. rewrite Y in P. discriminate P.
Qed.
(** While the engine waits for the answer to a connect, no CONNECTED has arrived on its
    connection since the connect was written there. *)
Definition unanswered (s : sys) : Prop := forall a n, s_phase s = PConn a n Waiting ->
  forall l1 o ok l2, s_log s = l1 ++ OWrite a (Some n) o ok :: l2 -> forall ser, ~ In (OArrive a ser InConnected) l2.
Lemma split_chunk {A} (x y : A) l c l1 l2 : l ++ c = l1 ++ x :: l2 -> In y l2 -> ~ In y c -> exists l3, l = l1 ++ x :: l3 /\ In y l3.
Proof.
  revert l. induction l1 as [|z l1 IH]; intros [|w l] Es I N.
  - cbn in Es. exfalso. apply N. rewrite Es. now right.
  - cbn in Es. injection Es as <- <-. exists l. split; [reflexivity|]. apply in_app_iff in I as [I|I]; [exact I|contradiction].
  - exfalso. apply N. change ([] ++ c) with c in Es. rewrite Es. right. apply in_app_iff. right. now right.
  - cbn in Es. injection Es as -> Es. destruct (IH _ Es I N) as (l3 & -> & I3). now exists l3.
Qed.
Lemma written_not_queued E h s a k n o ok : reach E h s -> get_conn a (s_conns s) = Some k -> k_alive k = true -> In (OWrite a (Some n) o ok) (s_log s) -> ~ In n (qsrc (k_e2n k)).
Proof.
  intros H K A W Q. destruct (reach_queues E h s H) as [X _]. destruct (q_out s X a k K) as (lost & Y & _ & Z). rewrite (Z A) in Y. cbn [app] in Y.
  destruct (forwards_written E h s a H) as [_ N]. rewrite Y, PropReceipt.srcs_app in N. apply (nodup_two _ _ n N).
  - unfold srcs. apply in_flat_map. exists (Some n, o). split; [|now left]. unfold written. apply in_flat_map. exists (OWrite a (Some n) o ok). split; [exact W|]. rewrite baddr_eqb_refl. now left.
  - unfold srcs, outs. unfold qsrc in Q. apply in_flat_map in Q as (x & Hx & Hn). apply in_flat_map. exists (ci_src x, ci_out x). split; [apply in_map_iff; eauto|]. destruct (ci_src x); [exact Hn|destruct Hn].
Qed.
Lemma unanswered_step E h s e s' : reach E h s -> reach E (h ++ [e]) s' -> unanswered s -> trans E s e s' -> unanswered s'.
Proof.
  intros H H' V T a n P l1 o ok l2 El ser Ar. pose proof (reach_all E h s H) as I.
  destruct (enters E s e s' a n T P) as [P0|(l & o' & Ef)].
  2:{ pose proof (reach_entries E _ s' H') as En. destruct (En l (OForward n a o') [] Ef) as (_ & _ & _ & Nf & _).
      assert (Hw : In (OWrite a (Some n) o ok) l).
      { assert (X : In (OWrite a (Some n) o ok) (s_log s')) by (rewrite El; apply in_elt). rewrite Ef in X. apply in_app_iff in X as [X|[X|[]]]; [exact X|discriminate]. }
      pose proof (En _ _ _ El) as X. cbn [entry] in X. apply in_split in X as (p & q & Ep).
      apply in_split in Hw as (u & v & Eu). assert (Ew : s_log s' = u ++ OWrite a (Some n) o ok :: (v ++ [OForward n a o'])) by (rewrite Ef, Eu, <- app_assoc; reflexivity).
      pose proof (En _ _ _ Ew) as Y. cbn [entry] in Y. apply (Nf a o). rewrite Eu. apply in_app_iff. now left. }
  assert (Old : forall c, s_log s' = s_log s ++ c -> ~ In (OArrive a ser InConnected) c -> False).
  { intros c L N. rewrite L in El. destruct (split_chunk _ _ _ _ _ _ El Ar N) as (l3 & E3 & I3). exact (V a n P0 _ _ _ _ E3 ser I3). }
  assert (Nt : (exists b x, e = EvNet b x) \/ forall b x, e <> EvNet b x) by (destruct e; try (right; discriminate); left; eauto).
  destruct Nt as [(b & x & ->)|Nt].
  2:{ destruct (trans_noarr E s e s' Nt T) as (c & L & U). apply (Old c L). intros X. rewrite forallb_forall in U. specialize (U _ X). discriminate U. }
  assert (Key : forall k m r, get_conn a (s_conns s) = Some k -> k_alive k = true -> In (OWrite a (Some n) o ok) (s_log s) -> r_resolve (ikey InConnected) (k_res k) = Some (m, r) \/ r_resolve (ikey InConnected) (k_res k) = None -> r_resolve (ikey InConnected) (k_res k) = Some (n, r_del kconnect (k_res k))).
  { intros k m r K A W _. pose proof (reach_winv E h s H) as Wi. pose proof (w_ph s Wi) as Ph. rewrite P0 in Ph. cbn [ph_ok] in Ph. destruct Ph as (k' & K' & Ph). rewrite K in K'. injection K' as <-.
    destruct Ph as [Q|Q]; [exfalso; exact (written_not_queued E h s a k n o ok H K A W Q)|].
    apply in_map_iff in Q as ([key m'] & Em & Q). cbn [snd] in Em. subst m'. destruct (c_res E s (v_c E s I) a k key n K Q) as [-> _].
    pose proof (w_one s Wi a k K) as L. destruct (k_res k) as [|y [|]]; [destruct Q| |cbn in L; lia]. destruct Q as [->|[]].
    change (ikey InConnected) with (Some kconnect). unfold r_resolve. cbn [r_find]. rewrite bytes_eqb_refl. reflexivity. }
  assert (Wo : forall c, s_log s' = s_log s ++ c -> (forall a b o k, ~ In (OWrite a b o k) c) -> In (OWrite a (Some n) o ok) (s_log s)).
  { intros c L N. assert (X : In (OWrite a (Some n) o ok) (s_log s')) by (rewrite El; apply in_elt). rewrite L in X. apply in_app_iff in X as [X|X]; [exact X|exfalso; eapply N; exact X]. }
  inversion T; subst.
  - apply (Old []); [symmetry; apply app_nil_r|intros []].
  - apply (Old []); [symmetry; apply app_nil_r|intros []].
  - apply (Old []); [symmetry; apply app_nil_r|intros []].
  - eapply Old; [reflexivity|]. intros [X|[]]. injection X as -> <- ->.
    cbn [s_phase with_phase] in P. rewrite P0 in P.
    match goal with X : r_resolve (ikey InConnected) (k_res ?k) = Some (?m, ?r), K : get_conn a (s_conns s) = Some ?k, Al : k_alive ?k = true |- _ => rename X into Hr; rename K into Hk; rename Al into Ha end.
    rewrite (Key _ _ _ Hk Ha (Wo _ eq_refl ltac:(intros ? ? ? ? [X|[]]; discriminate X)) (or_introl Hr)) in Hr. injection Hr as <- <-.
    cbn [wake_ph] in P. rewrite Nat.eqb_refl in P. discriminate P.
  - eapply Old; [reflexivity|]. intros [X|[]]. injection X as -> <- ->.
    match goal with X : r_resolve (ikey InConnected) (k_res ?k) = None, K : get_conn a (s_conns s) = Some ?k, Al : k_alive ?k = true |- _ => rename X into Hr; rename K into Hk; rename Al into Ha end.
    rewrite (Key _ 0 [] Hk Ha (Wo _ eq_refl ltac:(intros ? ? ? ? [X|[]]; discriminate X)) (or_intror Hr)) in Hr. discriminate Hr.
  - congruence.
Qed.
Lemma reach_unanswered E h s : reach E h s -> unanswered s.
Proof.
  revert s. induction h as [|e h IH] using rev_ind; intros s H; [injection H as <-; intros a n P; discriminate P|].
  pose proof H as H'. unfold reach in H. rewrite run_app in H. destruct (run E sys_init h) as [s0|] eqn:R; [|discriminate]. cbn [run] in H. destruct (step E s0 e) as [s1|] eqn:S; [|discriminate]. injection H as <-.
  exact (unanswered_step E h s0 e s1 R H' (IH s0 R) (step_trans _ _ _ _ (reach_wf E h s0 R) S)).
Qed.

(** The tasks are at rest and the engine has not ended; no connection has been lost, and
    whatever has been written has been answered since, on the connection on which it was
    written. Then no connect is left waiting. *)
Theorem C84_no_connect_left : forall E rank h s, reach E h s -> as_polled E rank h -> at_rest E rank h s -> ~ In OStop (s_log s) -> none_lost s -> all_answered (s_log s) ->
  forall m, ~ in_flight (s_log s) m KConnect.
Proof.
  intros E rank h s H Po A Ns Nl An m F. pose proof (reach_all E h s H) as I. pose proof (rest_quiet E rank h s H Po A) as Q. unfold quiet in Q.
  destruct (flight_waiting _ _ _ F) as (key & W & K). destruct F as (o & F1 & F2 & F3 & F4 & F5). pose proof (K o F2) as Ko.
  assert (key = kconnect) as -> by (destruct (kind_connect o F2) as [c ->]; cbn in Ko; injection Ko as <-; reflexivity).
  apply (waiting_find s m kconnect (v_r E s I)) in W. pose proof (c_ph E s (v_c E s I)) as Cp. unfold phase_ok in Cp.
  destruct (s_phase s) as [| |? ? ?|? ? ?|a n [|? ?|]|] eqn:P; try contradiction; [congruence| |apply Ns, (i_stop s (v_s E s I)); exact P].
  destruct Cp as (C1 & (c & C2) & _). rewrite C1 in W. injection W as ->.
  destruct (in_split _ _ C2) as (u & v & Eu). destruct (reach_entries E h s H _ _ _ Eu) as (_ & Da & _). destruct (Nl a ltac:(rewrite Eu; apply in_app_iff; now left)) as (k & Kk & Al).
  pose proof (drained E h s a k H Kk Al (Q a k Kk Al)) as D.
  assert (X : In (Some m, OConnect c) (queued a (s_log s))) by (unfold queued; apply in_flat_map; exists (OForward m a (OConnect c)); split; [exact C2|]; rewrite baddr_eqb_refl; now left).
  rewrite <- D in X. unfold written in X. apply in_flat_map in X as (y & Hy & Hw). destruct y as [| | | | | | |b sr o' ok| | | | | | | | | | |]; try contradiction.
  destruct (baddr_eqb b a) eqn:B; [|contradiction]. apply baddr_eqb_spec in B. subst b. destruct Hw as [[= -> ->]|[]].
  apply in_split in Hy as (l1 & l2 & El). destruct (An l1 a m (OConnect c) ok l2 KConnect El eq_refl eq_refl) as (ser & i & Ar & Ai).
  assert (i = InConnected) as -> by (destruct i; cbn [answers] in Ai; try contradiction; reflexivity).
  exact (reach_unanswered E h s H a m P _ _ _ _ El ser Ar).
Qed.
Print Assumptions C84_no_connect_left.
(** And every call of a registered client that waits for a response has completed. *)
Theorem C84_every_call_completes : forall E rank h s, reach E h s -> as_polled E rank h -> at_rest E rank h s -> ~ In OStop (s_log s) -> none_lost s -> all_answered (s_log s) ->
  forall c id n o k, In (c, id) (registered (s_log s)) -> In (OIssue c n o) (s_log s) -> kind_of o = Some k -> expects k = true -> In n (settled (s_log s)).
Proof.
  intros E rank h s H Po A Ns Nl An c id n o k Rc Is Kd Ex.
  apply (C82_all_complete E rank h s H Po A Ns (C84_no_connect_left E rank h s H Po A Ns Nl An)) with c id o k; auto.
  intros l1 a m q ok l2 k' El Kq Eq. destruct (An l1 a m q ok l2 k' El Kq Eq) as (ser & i & X & Y). eauto.
Qed.
Print Assumptions C84_every_call_completes.

(** * Programs *)
Lemma outcome_settled n l : In n (settled l) <-> outcome_of n l <> None.
Proof.
  unfold settled. induction l as [|x l IH]; [split; [intros []|intros X; now elim X]|].
  destruct x; cbn [flat_map app outcome_of In]; try exact IH.
  - destruct (Nat.eqb_spec n0 n) as [->|N]; [split; [discriminate|auto]|]. rewrite <- IH. intuition congruence.
  - destruct (Nat.eqb_spec n0 n) as [->|N]; [split; [discriminate|auto]|]. rewrite <- IH. intuition congruence.
Qed.
Lemma outcome_in n l x : outcome_of n l = Some x -> (exists ser i, x = Resolved i /\ In (OAnswer n ser i) l) \/ (x = Cancelled /\ In (OCancel n) l).
Proof.
  induction l as [|y l IH]; [discriminate|]. cbn [outcome_of].
  assert (G : outcome_of n l = Some x -> (exists ser i, x = Resolved i /\ In (OAnswer n ser i) (y :: l)) \/ (x = Cancelled /\ In (OCancel n) (y :: l))).
  { intros X. destruct (IH X) as [(ser & i & A & B)|[A B]]; [left; exists ser, i; split; [exact A|now right]|right; split; [exact A|now right]]. }
  destruct y; try exact G.
  - destruct (Nat.eqb_spec n0 n) as [->|N]; [|exact G]. intros [= <-]. left. eexists _, _. split; [reflexivity|now left].
  - destruct (Nat.eqb_spec n0 n) as [->|N]; [|exact G]. intros [= <-]. right. split; [reflexivity|now left].
Qed.
Lemma replies_queued l ps : forall r, In r (replies_to l ps) -> r <> NotQueued.
Proof.
  induction ps as [|[n o] ps IH]; intros r X; [destruct X|]. cbn [replies_to] in X. destruct (waits o).
  - destruct (outcome_of n l) as [x|] eqn:O; [|destruct X]. destruct X as [<-|X]; [|auto]. destruct (outcome_in _ _ _ O) as [(? & ? & -> & _)|[-> _]]; discriminate.
  - destruct X as [<-|X]; [discriminate|auto].
Qed.
Lemma replies_all l ps : (forall n o, In (n, o) ps -> waits o = true -> In n (settled l)) -> length (replies_to l ps) = length ps.
Proof.
  induction ps as [|[n o] ps IH]; intros S; [reflexivity|]. cbn [replies_to]. assert (L : length (replies_to l ps) = length ps) by (apply IH; intros m q X; apply S; now right).
  destruct (waits o) eqn:W; [|cbn [length]; now rewrite L]. pose proof (proj1 (outcome_settled n l) (S n o (or_introl eq_refl) W)). destruct (outcome_of n l); [cbn [length]; now rewrite L|congruence].
Qed.
Lemma exec_waiting : forall rs p made, (forall r, In r rs -> r <> NotQueued) -> exec p rs = (made, None) -> length made = S (length rs).
Proof.
  induction rs as [|r rs IH]; intros p made N X; (destruct p as [y|o k|o k]; cbn [exec] in X; [discriminate X| |]).
  - injection X as <-. reflexivity.
  - injection X as <-. reflexivity.
  - assert (N' : forall x, In x rs -> x <> NotQueued) by (intros x Y; apply N; now right).
    assert (Nr := N r (or_introl eq_refl)). destruct r as [i| |]; [| |now elim Nr];
      (destruct (exec (k (ask_result o _)) rs) as [l x] eqn:Ee; injection X as <- ->; cbn [length]; f_equal; exact (IH _ _ N' Ee)).
  - assert (N' : forall x, In x rs -> x <> NotQueued) by (intros x Y; apply N; now right).
    assert (Nr := N r (or_introl eq_refl)). destruct r as [i| |]; [| |now elim Nr];
      (destruct (exec (k (post_result _)) rs) as [l x] eqn:Ee; injection X as <- ->; cbn [length]; f_equal; exact (IH _ _ N' Ee)).
Qed.
(** Under the same conditions any program of a registered client that makes calls and
    waits for them one after the other has returned. *)
Theorem C84_program_returns : forall E rank h s c id p, reach E h s -> as_polled E rank h -> at_rest E rank h s -> ~ In OStop (s_log s) -> none_lost s -> all_answered (s_log s) ->
  In (c, id) (registered (s_log s)) -> running c p (s_log s) -> exists x, snd (exec p (replies c (s_log s))) = Some x.
Proof.
  intros E rank h s c id p H Po A Ns Nl An Rc Ru. unfold running in Ru. destruct (exec p (replies c (s_log s))) as [made [x|]] eqn:Ee; [now exists x|exfalso]. cbn [fst] in Ru.
  pose proof (exec_waiting _ _ _ (replies_queued _ _) Ee) as L. rewrite <- Ru in L. unfold replies in L. rewrite replies_all in L.
  - pose proof (f_equal (@length _) (picks_snd c (fun _ => true) (s_log s))) as Z. rewrite map_length in Z. rewrite Z in L.
    assert (Ft : forall l : list outbound, filter (fun _ => true) l = l) by (induction l as [|y l IH]; [reflexivity|cbn; now rewrite IH]). rewrite Ft in L. lia.
  - intros n o X W. apply picks_in in X as [X _]. unfold waits in W. destruct (kind_of o) as [k|] eqn:K; [|discriminate].
    exact (C84_every_call_completes E rank h s H Po A Ns Nl An c id n o k Rc X K W).
Qed.
Print Assumptions C84_program_returns.
(** * Building a consumer or a producer *)
Lemma kind_eq k : k = KConnect \/ k <> KConnect. Proof. destruct k; auto; right; discriminate. Qed.
Lemma not_cancelled E h s n o k : reach E h s -> ~ In OStop (s_log s) -> requested (s_log s) n o -> kind_of o = Some k -> k = KConnect \/ no_collision_of k (s_log s) -> ~ In (OCancel n) (s_log s).
Proof.
  intros H Ns Rq K D X. apply in_split in X as (l1 & l2 & El).
  assert (Kc : k <> KConnect -> False).
  { intros Nk. destruct D as [D|D]; [contradiction|]. pose proof (reach_entries E h s H) as En.
    destruct (En _ _ _ El) as [Y|(l0 & m & key & q & -> & W & X & X1 & X2)]; [apply Ns; rewrite El; apply in_app_iff; now left|].
    apply waiting_flight in W as (k' & q' & F1 & F2 & F3 & F4).
    assert (Kk : kind_of q = kind_of q') by (apply C23_key_iff_kind; congruence).
    assert (El0 : s_log s = l0 ++ OTake m :: OCancel n :: l2) by (rewrite El, <- app_assoc; reflexivity).
    assert (q' = o) as -> by (apply (requested_uniq E h s n _ _ H); [rewrite El0; now apply requested_app|exact Rq]).
    assert (k' = k) as -> by congruence. apply (D l0 m (OCancel n :: l2) n q El0 X); [congruence|exact F1]. }
  destruct (kind_eq k) as [->|N]; [|exact (Kc N)]. destruct (kind_connect o K) as [c ->].
  apply Ns. rewrite El. apply in_app_iff. left. exact (C37_connects_never_cancelled E h s l1 n c l2 H El Rq).
Qed.
Lemma replies_nth l : forall ps k r, nth_error (replies_to l ps) k = Some r -> exists n o, nth_error ps k = Some (n, o) /\ (waits o = true -> outcome_of n l = Some r).
Proof.
  induction ps as [|[n o] ps IH]; intros k r X; [destruct k; discriminate|]. cbn [replies_to] in X. destruct (waits o) eqn:W.
  - destruct (outcome_of n l) as [x|] eqn:O; [|destruct k; discriminate X]. destruct k as [|k]; [injection X as <-; exists n, o; auto|exact (IH k r X)].
  - destruct k as [|k]; [exists n, o; split; [reflexivity|congruence]|exact (IH k r X)].
Qed.
Lemma step_reply l c made (path : list SpecClient.step) rest k o v r : requests c l = made -> map fst path = made ++ rest -> nth_error path k = Some (o, v) -> nth_error (replies c l) k = Some r ->
  (exists n, In (OIssue c n o) l /\ (waits o = true -> outcome_of n l = Some r)) /\ r <> NotQueued.
Proof.
  intros Rq Em Hp Hr. split; [|eapply replies_queued; eapply nth_error_In; exact Hr].
  destruct (replies_nth _ _ _ _ Hr) as (n & q & Hn & W).
  assert (Hq : nth_error made k = Some q).
  { rewrite <- Rq. assert (Ft : forall m : list outbound, filter (fun _ => true) m = m) by (induction m as [|y m IH]; [reflexivity|cbn; now rewrite IH]).
    rewrite <- (Ft (requests c l)), <- picks_snd. exact (map_nth_error snd _ _ Hn). }
  assert (Ho : nth_error (map fst path) k = Some o) by exact (map_nth_error fst _ _ Hp).
  rewrite Em, nth_error_app1 in Ho by (apply nth_error_Some; congruence). assert (q = o) as -> by congruence.
  exists n. split; [|exact W]. apply nth_error_In, picks_in in Hn. apply Hn.
Qed.
Lemma good_answer E h s c n o k r : reach E h s -> ~ In OStop (s_log s) -> In (OIssue c n o) (s_log s) -> kind_of o = Some k -> expects k = true -> k = KConnect \/ no_collision_of k (s_log s) ->
  (waits o = true -> outcome_of n (s_log s) = Some r) -> exists ser i, r = Resolved i /\ In (OAnswer n ser i) (s_log s) /\ answers i k.
Proof.
  intros H Ns Is K Ex D W. assert (Wo : waits o = true) by (unfold waits; now rewrite K). specialize (W Wo).
  destruct (outcome_in _ _ _ W) as [(ser & i & -> & A)|[-> A]]; [|exfalso; exact (not_cancelled E h s n o k H Ns (ex_intro _ c Is) K D A)].
  exists ser, i. split; [reflexivity|]. split; [exact A|]. apply in_split in A as (l1 & l2 & El).
  destruct (C34_answer_of_its_kind E h s _ _ _ _ _ H El) as (l0 & a & i0 & k' & -> & _ & _ & (o' & R' & K' & _) & An).
  assert (o' = o) as -> by (apply (requested_uniq E h s n _ _ H); [rewrite El, <- app_assoc; now apply requested_app|now exists c]). congruence.
Qed.
(** Building a consumer returns Ok, unless the broker's answer to the first lookup says
    Failed, an error, or Redirect, a panic. Conditions: the tasks are at rest, the engine
    has not ended, no connection has been lost, whatever has been written has been
    answered since, and no lookup or subscription was taken while another one was in
    flight. *)
Theorem C84_consumer_built : forall E rank h s c cid id name topic sub permits, reach E h s -> as_polled E rank h -> at_rest E rank h s -> ~ In OStop (s_log s) -> none_lost s -> all_answered (s_log s) ->
  no_collision_of KLookup (s_log s) -> no_collision_of KSubscribe (s_log s) ->
  let p := consumer_connect id name topic sub permits Client.fresh in
  In (c, cid) (registered (s_log s)) -> running c p (s_log s) ->
  let x := snd (exec p (replies c (s_log s))) in
  x = Some (Ok tt) \/ exists n ser r, In (OIssue c n (OLookup 0 topic)) (s_log s) /\ In (OAnswer n ser (InLookup r)) (s_log s) /\
    (lr_type r = LFailed /\ x = Some (Err ConnectionFailed) \/ lr_type r = LRedirect /\ x = Some Panic).
Proof.
  intros E rank h s c cid id name topic sub permits H Po A Ns Nl An Cl Cs p Rc Ru x.
  destruct (C84_program_returns E rank h s c cid p H Po A Ns Nl An Rc Ru) as [v Hv]. fold x in Hv.
  assert (Dec : v = Ok tt \/ v <> Ok tt) by (destruct v as [[]| |]; [left; reflexivity|right; discriminate|right; discriminate]).
  destruct Dec as [->|Nv]; [now left|right]. unfold running in Ru.
  destruct (C20_consumer_order id name topic sub permits (replies c (s_log s))) as [[rest Em] _]. fold p in Em. rewrite <- Ru in Em.
  destruct (proj2 (C20_consumer_result id name topic sub permits (replies c (s_log s))) v Hv Nv) as (k & o & w & r & Hp & Hr & Hw & _).
  destruct (step_reply _ _ _ _ _ _ _ _ _ eq_refl Em Hp Hr) as [(n & Is & W) Nq].
  pose proof (good_answer E h s c n o) as Good.
  assert (In (o, w) (consumer_path id topic sub permits (asks_proxy (replies c (s_log s))))) as Hi by (eapply nth_error_In; exact Hp).
  assert (Cases : (exists cr, o = OConnect cr /\ w = connected) \/ (o = OLookup 0 topic /\ w = lookup_connect) \/ (exists q, o = OLookup q topic /\ w = lookup_any) \/ (exists q, o = OSubscribe topic sub id q Shared /\ w = subscribed) \/ (w = SpecClient.queued)).
  { unfold consumer_path, direct_steps, proxied_steps, subscribe_steps, plain_connect, proxy_connect in Hi. destruct (asks_proxy _); cbn [app In] in Hi; repeat (destruct Hi as [Hi|Hi]; [injection Hi as <- <-; eauto 10|]); destruct Hi. }
  destruct Cases as [(cr & -> & ->)|[(-> & ->)|[(q & -> & ->)|[(q & -> & ->)| ->]]]].
  - destruct (Good KConnect r H Ns Is eq_refl eq_refl (or_introl eq_refl) W) as (ser & i & -> & _ & Ai). destruct i; cbn [answers] in Ai; try contradiction. cbn in Hw. now elim Nv.
  - destruct (Good KLookup r H Ns Is eq_refl eq_refl (or_intror Cl) W) as (ser & i & -> & Ia & Ai). destruct i as [| | | | | |lr| | |]; cbn [answers] in Ai; try contradiction. exists n, ser, lr. split; [exact Is|]. split; [exact Ia|].
    cbn in Hw. rewrite Hv. destruct (lr_type lr); try (now elim Nv); [right|left]; subst v; auto.
  - destruct (Good KLookup r H Ns Is eq_refl eq_refl (or_intror Cl) W) as (ser & i & -> & Ia & Ai). destruct i as [| | | | | |lr| | |]; cbn [answers] in Ai; try contradiction. cbn in Hw. now elim Nv.
  - destruct (Good KSubscribe r H Ns Is eq_refl eq_refl (or_intror Cs) W) as (ser & i & -> & Ia & Ai). destruct i; cbn [answers] in Ai; try contradiction. cbn in Hw. now elim Nv.
  - destruct r; cbn in Hw; try (now elim Nv); now elim Nq.
Qed.
Print Assumptions C84_consumer_built.
(** Likewise for a producer: Ok, unless the broker's answer to the first lookup says
    Failed, an error, or Redirect, a panic. Conditions: the tasks are at rest, the engine
    has not ended, no connection has been lost, whatever has been written has been
    answered since, and no lookup or producer registration was taken while another one was in
    flight. *)
Theorem C84_producer_built : forall E rank h s c cid id name topic, reach E h s -> as_polled E rank h -> at_rest E rank h s -> ~ In OStop (s_log s) -> none_lost s -> all_answered (s_log s) ->
  no_collision_of KLookup (s_log s) -> no_collision_of KProducer (s_log s) ->
  let p := producer_connect id name topic Client.fresh in
  In (c, cid) (registered (s_log s)) -> running c p (s_log s) ->
  let x := snd (exec p (replies c (s_log s))) in
  x = Some (Ok tt) \/ exists n ser r, In (OIssue c n (OLookup 0 topic)) (s_log s) /\ In (OAnswer n ser (InLookup r)) (s_log s) /\
    (lr_type r = LFailed /\ x = Some (Err ConnectionFailed) \/ lr_type r = LRedirect /\ x = Some Panic).
Proof.
  intros E rank h s c cid id name topic H Po A Ns Nl An Cl Cs p Rc Ru x.
  destruct (C84_program_returns E rank h s c cid p H Po A Ns Nl An Rc Ru) as [v Hv]. fold x in Hv.
  assert (Dec : v = Ok tt \/ v <> Ok tt) by (destruct v as [[]| |]; [left; reflexivity|right; discriminate|right; discriminate]).
  destruct Dec as [->|Nv]; [now left|right]. unfold running in Ru.
  set (path := match asks_proxy (replies c (s_log s)) with None => direct_steps topic ++ producer_steps id name topic 1 | Some target => proxied_steps topic target ++ producer_steps id name topic 2 end).
  assert (Ew : exec p (replies c (s_log s)) = walk path (replies c (s_log s))) by apply C20_producer_handshake.
  destruct (walk_order path) with (rs := replies c (s_log s)) as [rest Em].
  { intros y Hy. unfold path in Hy. destruct (asks_proxy _); cbn in Hy; repeat (destruct Hy as [<-|Hy]; [reflexivity|]); contradiction. }
  rewrite <- Ew, <- Ru in Em. assert (Hv' : snd (walk path (replies c (s_log s))) = Some v) by (rewrite <- Ew; exact Hv).
  destruct (walk_failure path _ v Hv' Nv) as (k & o & w & r & Hp & Hr & Hw & _).
  destruct (step_reply _ _ _ _ _ _ _ _ _ eq_refl Em Hp Hr) as [(n & Is & W) Nq].
  pose proof (good_answer E h s c n o) as Good.
  assert (In (o, w) path) as Hi by (eapply nth_error_In; exact Hp).
  assert (Cases : (exists cr, o = OConnect cr /\ w = connected) \/ (o = OLookup 0 topic /\ w = lookup_connect) \/ (exists q, o = OLookup q topic /\ w = lookup_any) \/ (exists q, o = OProducer topic id q (Some name) /\ w = producer_ready)).
  { unfold path, direct_steps, proxied_steps, producer_steps, plain_connect, proxy_connect in Hi. destruct (asks_proxy _); cbn [app In] in Hi; repeat (destruct Hi as [Hi|Hi]; [injection Hi as <- <-; eauto 10|]); destruct Hi. }
  destruct Cases as [(cr & -> & ->)|[(-> & ->)|[(q & -> & ->)|(q & -> & ->)]]].
  - destruct (Good KConnect r H Ns Is eq_refl eq_refl (or_introl eq_refl) W) as (ser & i & -> & _ & Ai). destruct i; cbn [answers] in Ai; try contradiction. cbn in Hw. now elim Nv.
  - destruct (Good KLookup r H Ns Is eq_refl eq_refl (or_intror Cl) W) as (ser & i & -> & Ia & Ai). destruct i as [| | | | | |lr| | |]; cbn [answers] in Ai; try contradiction. exists n, ser, lr. split; [exact Is|]. split; [exact Ia|].
    cbn in Hw. rewrite Hv. destruct (lr_type lr); try (now elim Nv); [right|left]; subst v; auto.
  - destruct (Good KLookup r H Ns Is eq_refl eq_refl (or_intror Cl) W) as (ser & i & -> & Ia & Ai). destruct i as [| | | | | |lr| | |]; cbn [answers] in Ai; try contradiction. cbn in Hw. now elim Nv.
  - destruct (Good KProducer r H Ns Is eq_refl eq_refl (or_intror Cs) W) as (ser & i & -> & Ia & Ai). destruct i; cbn [answers] in Ai; try contradiction. cbn in Hw. now elim Nv.
Qed.
Print Assumptions C84_producer_built.

(** * A concrete run *)
(** A consumer has been built behind the proxy. *)
Definition b_events : list event := firstn 34 w_events.
Fixpoint all_answeredb (l : list obs) : bool :=
  match l with
  | [] => true
  | OWrite a (Some _) o _ :: r => match kind_of o with
      | Some k => negb (expects k) || existsb (fun x => match x with OArrive b _ i => baddr_eqb a b && answersb k i | _ => false end) r
      | None => true end && all_answeredb r
  | _ :: r => all_answeredb r
  end.
Lemma all_answeredb_spec l : all_answeredb l = true -> all_answered l.
Proof.
  intros A l1. revert l A. induction l1 as [|x l1 IH]; intros l A a n o ok l2 k -> K X.
  - cbn [app all_answeredb] in A. rewrite K, X in A. cbn [negb orb] in A. apply andb_true_iff in A as [A _]. apply existsb_exists in A as (y & Y & B). destruct y; try discriminate. apply andb_true_iff in B as [B1 B]. apply baddr_eqb_spec in B1. subst. apply answersb_spec in B. eauto.
  - apply (IH (l1 ++ OWrite a (Some n) o ok :: l2)) with n o ok; auto. cbn [app all_answeredb] in A. destruct x; try exact A. destruct src; [|exact A]. now apply andb_true_iff in A.
Qed.
Definition b_log : list obs := Eval vm_compute in log_of b_events.
Lemma b_no_collision k : k = KLookup \/ k = KSubscribe -> no_collision_of k b_log.
Proof.
  unfold b_log. intros Kk l1 n l2 m o El [h1 Hr] Hk (o' & [h2 Q1] & Q2 & Q3 & Q4 & Q5). splits El.
  all: cbn in Hr, Q1; vm_compute in Q4, Q5.
  all: repeat match goal with H : _ \/ _ |- _ => destruct H as [H|H]; try discriminate H | H : False |- _ => destruct H end; try lia.
  all: repeat match goal with H : OIssue _ _ _ = OIssue _ _ _ |- _ => injection H; clear H; intros; subst end; try lia; cbn in Hk, Q2; try congruence; try tauto.
Qed.
Example C84_meets : exists s, reach xE b_events s /\ (forall rank, as_polled xE rank b_events /\ at_rest xE rank b_events s) /\ ~ In OStop (s_log s) /\ none_lost s /\ all_answered (s_log s) /\
  no_collision_of KLookup (s_log s) /\ no_collision_of KSubscribe (s_log s) /\ In (0, 0%N) (registered (s_log s)) /\
  let p := consumer_connect 0 (str "n") (str "t") (str "s") 250 Client.fresh in
  running 0 p (s_log s) /\ length (requests 0 (s_log s)) = 6 /\ snd (exec p (replies 0 (s_log s))) = Some (Ok tt).
Proof.
  unfold reach. destruct (run xE sys_init b_events) as [s|] eqn:R; [|vm_compute in R; discriminate]. exists s. split; [reflexivity|].
  assert (Po : forall rank, as_polled xE rank b_events) by (apply orderly_polled; vm_compute; reflexivity).
  assert (Qt : quiet s).
  { vm_compute in R. injection R as <-. unfold quiet. cbn [s_phase]. split; [reflexivity|]. split; [reflexivity|]. split; [|split].
    - intros c X. cbn [s_clients In] in X. destruct X as [<-|[]]; (split; vm_compute; reflexivity).
    - intros a k K. cbn [s_conns get_conn] in K. repeat (destruct (baddr_eqb a _) in K; [injection K as <-; reflexivity|]). discriminate.
    - intros _ a (k & K & N). cbn [s_conns get_conn] in K. repeat (destruct (baddr_eqb a _) in K; [injection K as <-; apply N; split; reflexivity|]). discriminate. }
  split; [intros rank; split; [apply Po|exact (quiet_rest xE rank _ s R Qt)]|].
  assert (Ns : ~ In OStop (s_log s)) by (rewrite <- (i_stop s (v_s xE s (reach_all xE _ s R))); vm_compute in R; injection R as <-; discriminate).
  assert (El : s_log s = b_log) by (vm_compute in R; injection R as <-; reflexivity).
  split; [exact Ns|]. split; [|split; [|split; [|split]]].
  - vm_compute in R. injection R as <-. intros a D. unfold s_log in D. cbn [In] in D. repeat (destruct D as [D|D]; [first [discriminate D|injection D as <-; vm_compute; eexists; split; reflexivity]|]). destruct D.
  - rewrite El. apply all_answeredb_spec. vm_compute. reflexivity.
  - rewrite El. apply b_no_collision. auto.
  - rewrite El. apply b_no_collision. auto.
  - rewrite El. split; [vm_compute; auto|]. cbn zeta. split; [|split]; vm_compute; reflexivity.
Qed.
