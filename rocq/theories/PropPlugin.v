(** C32: plugin dispatch. *)
From Verif Require Import Bytes Errors Wire Proto Message Consumer SpecConsumer ConsumerFacts ConsumerRuns PropConsumer Plugin.

(** One message given to plugins 0 .. k-1, in that order. *)
Definition given {M} (k : nat) (m : M) : list (pcall M) := map (fun i => OnMessage i m) (seq 0 k).
(** All plugins accept the first [k] messages. *)
Definition accepted (plugins : nat) (beh : nat -> nat -> option (outcome unit)) (r0 k : nat) : Prop :=
  forall r i, (r0 <= r < r0 + k)%nat -> (i < plugins)%nat -> beh r i = Some (Ok tt).

Lemma dispatch_ok {M} (beh : nat -> option (outcome unit)) (m : M) k : forall i,
  (forall j, (i <= j < i + k)%nat -> beh j = Some (Ok tt)) -> dispatch beh m i k = (map (fun j => OnMessage j m) (seq i k), Some (Ok tt)).
Proof.
  induction k as [|k IH]; intros i H; [reflexivity|]. cbn. rewrite (H i) by lia. rewrite IH by (intros j Hj; apply H; lia). reflexivity.
Qed.
Lemma dispatch_stops {M} (beh : nat -> option (outcome unit)) (m : M) k n x : forall i, (n < k)%nat ->
  (forall j, (i <= j < i + n)%nat -> beh j = Some (Ok tt)) -> beh (i + n)%nat = x -> x <> Some (Ok tt) ->
  dispatch beh m i k = (map (fun j => OnMessage j m) (seq i (S n)), x).
Proof.
  revert n. induction k as [|k IH]; intros n i Hn H E HX; [lia|]. cbn [dispatch].
  destruct n as [|n].
  - rewrite Nat.add_0_r in E. rewrite E. destruct x as [[[]| |]|]; [congruence|reflexivity..].
  - rewrite (H i) by lia. rewrite (IH n (S i)); [reflexivity|lia|intros j Hj; apply H; lia|rewrite <- E; f_equal; lia|exact HX].
Qed.
Lemma consume_accepted {M} plugins beh (ms : list M) : forall r0 rest, accepted plugins beh r0 (length ms) ->
  consume plugins beh r0 (map Ok ms ++ rest) =
    match consume plugins beh (r0 + length ms) rest with (l, n, r) => (flat_map (given plugins) ms ++ l, (length ms + n)%nat, r) end.
Proof.
  induction ms as [|m ms IH]; intros r0 rest HA.
  - cbn. rewrite Nat.add_0_r. now destruct (consume plugins beh r0 rest) as [[l n] r].
  - cbn [map app consume length flat_map]. rewrite dispatch_ok by (intros j Hj; apply HA; cbn; lia).
    rewrite IH by (intros r i Hr Hi; apply HA; [cbn; lia|exact Hi]).
    replace (S r0 + length ms)%nat with (r0 + S (length ms))%nat by lia.
    destruct (consume plugins beh (r0 + S (length ms)) rest) as [[l n] r]. now rewrite <- app_assoc.
Qed.

(** C32: while no plugin fails, every message is given to every plugin, in
    registration order, one message after the other, and consume goes on. *)
Theorem C32_every_plugin_every_message : forall M plugins beh (ms : list M),
  accepted plugins beh 0 (length ms) ->
  consume plugins beh 0 (map Ok ms) = (flat_map (given plugins) ms, length ms, None).
Proof.
  intros M plugins beh ms HA. pose proof (consume_accepted plugins beh ms 0 [] HA) as H. rewrite app_nil_r in H. rewrite H. cbn.
  now rewrite app_nil_r, Nat.add_0_r.
Qed.
(** C32: the first plugin that fails (or panics) ends consume with its error; the
    plugins after it do not get that message, and no later result is used. *)
Theorem C32_first_plugin_error : forall M plugins beh (ms : list M) m j x rest,
  accepted plugins beh 0 (length ms) -> (j < plugins)%nat ->
  (forall i, (i < j)%nat -> beh (length ms) i = Some (Ok tt)) -> beh (length ms) j = Some x -> x <> Ok tt ->
  consume plugins beh 0 (map Ok ms ++ Ok m :: rest) = (flat_map (given plugins) ms ++ given (S j) m, S (length ms), Some x).
Proof.
  intros M plugins beh ms m j x rest HA Hj HB HX Hx. rewrite consume_accepted by exact HA. cbn [consume]. rewrite Nat.add_0_l.
  rewrite (dispatch_stops (beh (length ms)) m plugins j (Some x) 0 Hj); [|intros i Hi; apply HB; lia|exact HX|congruence].
  destruct x as [[]| |]; [congruence| |]; now rewrite Nat.add_1_r.
Qed.
(** C32: a failing next_message ends consume with its error, without a plugin
    hearing of it. *)
Theorem C32_receive_error : forall M plugins beh (ms : list M) x rest,
  accepted plugins beh 0 (length ms) -> (forall m, x <> Ok m) ->
  exists y, consume plugins beh 0 (map Ok ms ++ x :: rest) = (flat_map (given plugins) ms, S (length ms), Some y) /\
    (forall e, x = Err e -> y = Err e) /\ (x = Panic -> y = Panic).
Proof.
  intros M plugins beh ms x rest HA HX. rewrite consume_accepted by exact HA.
  destruct x as [m|e|]; [now destruct (HX m)| |]; cbn [consume]; rewrite app_nil_r, Nat.add_1_r; eexists; (split; [reflexivity|]); split; intros; congruence.
Qed.
(** C32: these are all the ways to end: whenever consume returns, it was by the
    first failure of a plugin or of next_message; it never returns Ok. *)
Theorem C32_returns_only_on_failure : forall M plugins beh (nexts : list (outcome M)) calls n r,
  consume plugins beh 0 nexts = (calls, n, Some r) ->
  r <> Ok tt /\ exists ms, nexts = map Ok ms ++ skipn (length ms) nexts /\ accepted plugins beh 0 (length ms) /\ n = S (length ms) /\
    ((exists m j rest, skipn (length ms) nexts = Ok m :: rest /\ (j < plugins)%nat /\ (forall i, (i < j)%nat -> beh (length ms) i = Some (Ok tt)) /\
        beh (length ms) j = Some r) \/
     (exists e rest, r = Err e /\ skipn (length ms) nexts = Err e :: rest) \/ (exists rest, r = Panic /\ skipn (length ms) nexts = Panic :: rest)).
Proof.
  intros M plugins beh nexts. cut (forall r0 calls n r, consume plugins beh r0 nexts = (calls, n, Some r) ->
    r <> Ok tt /\ exists ms, nexts = map Ok ms ++ skipn (length ms) nexts /\ accepted plugins beh r0 (length ms) /\ n = S (length ms) /\
    ((exists m j rest, skipn (length ms) nexts = Ok m :: rest /\ (j < plugins)%nat /\ (forall i, (i < j)%nat -> beh (r0 + length ms)%nat i = Some (Ok tt)) /\
        beh (r0 + length ms)%nat j = Some r) \/
     (exists e rest, r = Err e /\ skipn (length ms) nexts = Err e :: rest) \/ (exists rest, r = Panic /\ skipn (length ms) nexts = Panic :: rest))).
  { intros H calls n r. apply (H 0%nat). }
  assert (HD : forall (b : nat -> option (outcome unit)) (m : M) k i,
    (forall j, (i <= j < i + k)%nat -> b j = Some (Ok tt)) \/
    exists j, (j < k)%nat /\ (forall j', (i <= j' < i + j)%nat -> b j' = Some (Ok tt)) /\ b (i + j)%nat <> Some (Ok tt)).
  { intros b m. induction k as [|k IH]; intros i; [left; intros; lia|].
    assert (HB : b i = Some (Ok tt) \/ b i <> Some (Ok tt)) by (destruct (b i) as [[[]| |]|]; [now left|right; discriminate..]).
    destruct HB as [HB|HB].
    - destruct (IH (S i)) as [H|(j & Hj & H1 & H2)].
      + left. intros j Hj. destruct (Nat.eq_dec j i) as [->|]; [exact HB|apply H; lia].
      + right. exists (S j). split; [lia|]. split; [|now replace (i + S j)%nat with (S i + j)%nat by lia].
        intros j' Hj'. destruct (Nat.eq_dec j' i) as [->|]; [exact HB|apply H1; lia].
    - right. exists 0%nat. split; [lia|]. split; [intros; lia|now rewrite Nat.add_0_r]. }
  induction nexts as [|x nexts IH]; intros r0 calls n r H; [discriminate|]. cbn [consume] in H. destruct x as [m|e|].
  - destruct (HD (beh r0) m plugins 0%nat) as [HA|(j & Hj & H1 & H2)].
    + rewrite dispatch_ok in H by (intros j Hj; apply HA; lia).
      destruct (consume plugins beh (S r0) nexts) as [[l' n'] r'] eqn:EC. inversion H; subst. destruct (IH _ _ _ _ EC) as (HR & ms & HE & HAc & -> & HC).
      split; [exact HR|]. exists (m :: ms). cbn [length map app skipn]. split; [now rewrite <- HE|]. split.
      { intros q i Hq Hi. destruct (Nat.eq_dec q r0) as [->|]; [apply HA; lia|apply HAc; [lia|exact Hi]]. }
      split; [reflexivity|]. replace (r0 + S (length ms))%nat with (S r0 + length ms)%nat by lia. exact HC.
    + rewrite (dispatch_stops (beh r0) m plugins j (beh r0 j) 0 Hj) in H; [|intros i Hi; apply H1; lia|reflexivity|exact H2].
      cbn in H2. destruct (beh r0 j) as [x|] eqn:EB; [|discriminate].
      assert (HX : n = 1%nat /\ x = r) by (destruct x as [[]| |]; [congruence|inversion H; auto..]). destruct HX as [-> ->].
      split; [congruence|]. exists []. cbn. split; [reflexivity|]. split; [intros q i Hq; lia|]. split; [reflexivity|]. left.
      exists m, j, nexts. rewrite Nat.add_0_r. split; [reflexivity|]. split; [exact Hj|]. split; [intros i Hi; apply H1; lia|exact EB].
  - inversion H; subst. split; [discriminate|]. exists []. cbn. split; [reflexivity|]. split; [intros q i Hq; lia|]. split; [reflexivity|]. right. left. eauto.
  - inversion H; subst. split; [discriminate|]. exists []. cbn. split; [reflexivity|]. split; [intros q i Hq; lia|]. split; [reflexivity|]. right. right. eauto.
Qed.
(** C32: on_connect and on_disconnect are never called. *)
Theorem C32_only_on_message : forall M plugins beh (nexts : list (outcome M)) c,
  In c (fst (fst (consume plugins beh 0 nexts))) -> exists i m, c = OnMessage i m /\ (i < plugins)%nat /\ In (Ok m) nexts.
Proof.
  intros M plugins beh nexts c. generalize 0%nat as r0.
  assert (HD : forall b (m : M) k i c, In c (fst (dispatch b m i k)) -> exists j, c = OnMessage j m /\ (j < i + k)%nat).
  { intros b m. induction k as [|k IH]; intros i c0 H; cbn in H; [destruct H|].
    destruct (b i) as [[u| |]|]; [|destruct H as [<-|[]]; exists i; split; [reflexivity|lia]..].
    destruct (dispatch b m (S i) k) as [l r] eqn:ED. cbn in H. destruct H as [<-|H]; [exists i; split; [reflexivity|lia]|].
    destruct (IH (S i) c0) as (j & -> & Hj); [now rewrite ED|]. exists j. split; [reflexivity|lia]. }
  induction nexts as [|x nexts IH]; intros r0 H; [destruct H|]. cbn [consume] in H. destruct x as [m|e|]; [|destruct H|destruct H].
  pose proof (HD (beh r0) m plugins 0%nat c) as HDm. destruct (dispatch (beh r0) m 0 plugins) as [l r]. cbn in HDm.
  assert (HL : In c l -> exists i m0, c = OnMessage i m0 /\ (i < plugins)%nat /\ In (Ok m0) (Ok m :: nexts)).
  { intros Hl. destruct (HDm Hl) as (j & -> & Hj). exists j, m. split; [reflexivity|]. split; [exact Hj|now left]. }
  destruct r as [[u| |]|]; [|exact (HL H)..].
  specialize (IH (S r0)). destruct (consume plugins beh (S r0) nexts) as [[l' n'] r']. cbn in H, IH. apply in_app_or in H. destruct H as [H|H]; [auto|].
  destruct (IH H) as (i & m0 & E & Hi & Hin). exists i, m0. split; [exact E|]. split; [exact Hi|now right].
Qed.

(** C32 end to end: consume runs as task [t], the only caller of the consumer, on
    any schedule; as long as nothing failed, every plugin has been given exactly
    the beginning of the stream of delivered messages, in order. *)
Theorem C32_plugins_see_the_stream : forall T (decode : bytes -> option T) P h s t plugins beh,
  (forall u k, In (Start u k) h -> u = t /\ k = NextMessage) -> reaches decode P h s ->
  let nexts := nexts_of t (c_log s) in
  (forall x, In x nexts -> exists m, x = Ok m) -> accepted plugins beh 0 (length nexts) ->
  exists seen, consume plugins beh 0 nexts = (flat_map (given plugins) seen, length seen, None) /\
    seen ++ pending decode s = stream decode (arrivals h).
Proof.
  intros T decode P h s t plugins beh HS HR nexts HOk HA. exists (returned (c_log s)).
  assert (HN : only_next_message h) by (intros u k Hk; now destruct (HS u k Hk)).
  split; [|exact (C25_exactly_once_in_order T decode P h s HN HR)].
  assert (HE : nexts = map Ok (returned (c_log s))).
  { unfold nexts in *. clear HA.
    assert (HL : forall u k r, In (Returned u k r) (c_log s) -> u = t /\ k = NextMessage).
    { clear HOk nexts. assert (HX : (forall u p, c_tasks s u = Some p -> u = t /\ pc_kind p = NextMessage) /\ forall u k r, In (Returned u k r) (c_log s) -> u = t /\ k = NextMessage); [|apply HX].
      revert HS. unfold reaches in HR. clear HN. revert h s HR.
      apply (crun_ind decode (fun h s => (forall u k, In (Start u k) h -> u = t /\ k = NextMessage) ->
        (forall u p, c_tasks s u = Some p -> u = t /\ pc_kind p = NextMessage) /\ forall u k r, In (Returned u k r) (c_log s) -> u = t /\ k = NextMessage)).
      - intros _. split; [discriminate|intros u k r []].
      - intros h s e s' HR IH HS HSt. destruct IH as [IT IL]; [intros u k Hk; apply HSt; apply in_or_app; now left|].
        assert (Mk : forall u q, c_tasks s' = set_task (c_tasks s) u q -> (forall p, q = Some p -> u = t /\ pc_kind p = NextMessage) ->
           (c_log s' = c_log s \/ (exists g, c_log s' = c_log s ++ [Flowed g]) \/ exists k r, c_log s' = c_log s ++ [Returned u k r] /\ u = t /\ k = NextMessage) ->
           (forall u p, c_tasks s' u = Some p -> u = t /\ pc_kind p = NextMessage) /\ forall u k r, In (Returned u k r) (c_log s') -> u = t /\ k = NextMessage).
        { intros u q E1 E2 E3. split.
          - intros v p Hv. rewrite E1 in Hv. destruct (Nat.eq_dec v u) as [->|NE]; [rewrite set_task_same in Hv; auto|rewrite set_task_other in Hv by exact NE; eauto].
          - intros v k r Hv. destruct E3 as [E3|[(g & E3)|(k0 & r0 & E3 & Hu & Hk)]]; rewrite E3 in Hv; [eauto| |];
              (apply in_app_or in Hv; destruct Hv as [Hv|[Hv|[]]]; [eauto|]); [discriminate|inversion Hv; subst; auto]. }
        destruct e as [u k|u|u|i|]; cbn in HS.
        + destruct (c_tasks s u) eqn:ET; [discriminate|]. inversion HS; subst s'. eapply Mk; [reflexivity| |now left].
          intros p Ep. inversion Ep; subst. cbn. apply HSt. apply in_or_app. right. now left.
        + destruct (c_tasks s u) as [p|] eqn:ET; [|discriminate]. destruct (IT _ _ ET) as [-> Hk].
          assert (HQ : forall p', pc_kind p' = NextMessage -> forall p0 : pc T, Some p' = Some p0 -> t = t /\ pc_kind p0 = NextMessage) by (intros p' Hp' p0 E; inversion E; subst; auto).
          assert (HQN : forall p0 : pc T, None = Some p0 -> t = t /\ pc_kind p0 = NextMessage) by discriminate.
          destruct p as [k|k c|k|k|k taken|k out]; cbn in Hk; subst k; cbn in HS.
          * inversion HS; subst s'. eapply Mk; [reflexivity| |now left]. destruct (c_permits s <=? c_counter s)%N; now apply HQ.
          * destruct (c_open s); inversion HS; subst s'; (eapply Mk; [reflexivity|first [exact HQN|now apply HQ]|cbn; eauto 8]).
          * inversion HS; subst s'. eapply Mk; [reflexivity|now apply HQ|now left].
          * destruct (c_lock s); [discriminate|]. destruct (c_buf s); inversion HS; subst s'; (eapply Mk; [reflexivity|first [exact HQN|now apply HQ]|cbn; eauto 8]).
          * assert (HW : forall q, s' = with_queue s q -> (forall u p, c_tasks s' u = Some p -> u = t /\ pc_kind p = NextMessage) /\ forall u k r, In (Returned u k r) (c_log s') -> u = t /\ k = NextMessage)
              by (intros q ->; split; assumption).
            destruct (c_queue s) as [|i q]; [destruct (c_open s); inversion HS; subst s'; eapply Mk; [reflexivity|exact HQN|cbn; eauto 8]|].
            destruct i; try (eapply HW; inversion HS; reflexivity).
            destruct (unpack decode d) as [[|m r]|er|]; inversion HS; subst s'; (eapply Mk; [reflexivity|first [exact HQN|now apply HQ]|cbn; eauto 8]).
          * inversion HS; subst s'. eapply Mk; [reflexivity|exact HQN|cbn; eauto 8].
        + destruct (c_tasks s u) as [p|] eqn:ET; [|discriminate]. destruct p; inversion HS; subst s'; (eapply Mk; [reflexivity|discriminate|now left]).
        + destruct (c_open s); inversion HS; subst s'. split; assumption.
        + inversion HS; subst s'. split; assumption. }
    assert (H1 : forall u k r, In (Returned u k r) (c_log s) -> forall ms, r = Ok ms -> length ms = 1%nat).
    { intros u k r Hin ms ->. destruct (HL _ _ _ Hin) as [_ ->]. apply (C25_one_message_per_call T decode P h s u ms HN HR Hin). }
    revert HL H1 HOk. generalize (c_log s). clear. intros log. induction log as [|o log IH]; intros HL H1 HOk; [reflexivity|].
    assert (IH' : nexts_of t log = map Ok (returned log)).
    { apply IH; [intros u k r H; apply (HL u k r); now right|intros u k r H; apply (H1 u k r); now right|].
      intros x Hx. apply HOk. unfold nexts_of in *. cbn. apply in_or_app. now right. }
    destruct o as [g|u k r]; [exact IH'|]. destruct (HL u k r (or_introl eq_refl)) as [-> ->].
    change (nexts_of t (Returned t NextMessage r :: log)) with ((if (t =? t)%nat then [obind r (fun ms => match ms with [m] => Ok m | _ => Panic end)] else []) ++ nexts_of t log) in *.
    rewrite Nat.eqb_refl in *. change (returned (Returned t NextMessage r :: log)) with ((match r with Ok ms => ms | _ => [] end) ++ returned log).
    rewrite IH', map_app. f_equal. destruct (HOk _ (or_introl eq_refl)) as [m Hm]. destruct r as [ms|e|]; try discriminate.
    pose proof (H1 _ _ _ (or_introl eq_refl) ms eq_refl) as Hl. destruct ms as [|a [|b ms]]; try discriminate. reflexivity. }
  rewrite HE. apply C32_every_plugin_every_message. rewrite <- (map_length Ok), <- HE. exact HA.
Qed.

(** * Concrete cases *)
Definition ex_beh (fail_round fail_plugin : nat) (r i : nat) : option (outcome unit) :=
  if ((r =? fail_round) && (i =? fail_plugin))%nat then Some (Err OperationTimeout) else Some (Ok tt).
Example ex_C32_fail : consume 3 (ex_beh 1 1) 0 [Ok 10; Ok 11; Ok 12]%nat =
  ([OnMessage 0 10; OnMessage 1 10; OnMessage 2 10; OnMessage 0 11; OnMessage 1 11]%nat, 2%nat, Some (Err OperationTimeout)).
Proof. reflexivity. Qed.
Example ex_C32_hyps : accepted 3 (ex_beh 1 1) 0 (length [10]%nat) /\ ex_beh 1 1 1 1 = Some (Err OperationTimeout) /\ ex_beh 1 1 1 0 = Some (Ok tt).
Proof.
  split; [|split; reflexivity]. intros r i Hr Hi. cbn in Hr. assert (r = 0)%nat by lia. subst. reflexivity.
Qed.

Print Assumptions C32_every_plugin_every_message.
Print Assumptions C32_first_plugin_error.
Print Assumptions C32_receive_error.
Print Assumptions C32_returns_only_on_failure.
Print Assumptions C32_only_on_message.
Print Assumptions C32_plugins_see_the_stream.
