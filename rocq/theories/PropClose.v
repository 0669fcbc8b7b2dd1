(** C63: a consumer after the engine has ended. *)
From Verif Require Import Bytes Errors Wire Proto Message Consumer SpecConsumer ConsumerFacts ConsumerRuns FlowFacts PropConsumer PropFlow.
Open Scope N_scope.

(** The calls started in a schedule. *)
Definition calls (h : list cev) : list nat := flat_map (fun e => match e with Start t _ => [t] | _ => [] end) h.
(** Neither a new call nor a second end: calls under way make steps or are dropped. *)
Definition only_continues (h : list cev) : Prop := forall e, In e h -> exists t, e = Step t \/ e = Drop t.

Lemma tasks_started {T} (decode : bytes -> option T) P h s : reaches decode P h s -> forall t, c_tasks s t <> None -> In t (calls h).
Proof.
  intros HR. revert h s HR. apply (crun_ind decode (fun h s => forall t, c_tasks s t <> None -> In t (calls h)) (cons_init P)); [intros t X; cbn in X; congruence|].
  intros h s e s' _ IH HS t. unfold calls. rewrite flat_map_app, in_app_iff. intros X.
  assert (N : forall u p, c_tasks s u <> None -> set_task (c_tasks s) u p t <> None -> c_tasks s t <> None).
  { intros u p A B. destruct (Nat.eq_dec t u) as [->|Ne]; [exact A|]. now lk. }
  destruct e as [u k|u|u|i|]; cbn in HS.
  - destruct (c_tasks s u) eqn:ET; [discriminate|]. injection HS as <-. cbn in X. destruct (Nat.eq_dec t u) as [->|Ne]; [right; cbn; auto|]. lk. left. now apply IH.
  - left. apply IH. destruct (c_tasks s u) as [p|] eqn:ET; [|discriminate]. assert (A : c_tasks s u <> None) by congruence.
    destruct p as [k|k c|k|k|k taken|k out]; cbn in HS.
    + injection HS as <-. eapply N; [exact A|exact X].
    + destruct (c_open s); injection HS as <-; (eapply N; [exact A|exact X]).
    + injection HS as <-. eapply N; [exact A|exact X].
    + destruct k as [|n]; destruct (c_lock s); try discriminate.
      * destruct (c_buf s); injection HS as <-; (eapply N; [exact A|exact X]).
      * injection HS as <-. eapply N; [exact A|exact X].
    + destruct (c_queue s) as [|i q]; [destruct (c_open s); [discriminate|]; injection HS as <-; eapply N; [exact A|exact X]|].
      destruct i; try (injection HS as <-; exact X). destruct (unpack decode d) as [ms|e|]; try (injection HS as <-; eapply N; [exact A|exact X]).
      destruct k as [|n]; [destruct ms|]; injection HS as <-; (eapply N; [exact A|exact X]).
    + injection HS as <-. eapply N; [exact A|exact X].
  - left. apply IH. destruct (c_tasks s u) as [p|] eqn:ET; [|discriminate]. assert (A : c_tasks s u <> None) by congruence.
    destruct p; cbn in HS; try discriminate; injection HS as <-; (eapply N; [exact A|exact X]).
  - left. apply IH. destruct (c_open s); [|discriminate]. injection HS as <-. exact X.
  - left. apply IH. injection HS as <-. exact X.
Qed.
Lemma keeps {T} (decode : bytes -> option T) (I : cons T -> Prop) : (forall x e x', I x -> cstep decode x e = Some x' -> I x') ->
  forall h x x', I x -> crun decode x h = Some x' -> I x'.
Proof.
  intros St. induction h as [|e h IH]; intros x x' Ix R; cbn in R; [injection R as <-; exact Ix|]. destruct (cstep decode x e) eqn:HS; [|discriminate]. eauto.
Qed.
Definition weight {T} (p : option (pc T)) : nat :=
  match p with None => 0 | Some p => match p with AtCheck _ => 5 | AtFlow _ _ => 4 | AtStore _ => 4 | AtLock _ => 3 | AtRecv _ _ => 2 | AtCount _ _ => 1 end end.
Definition load {T} (l : list nat) (s : cons T) : nat := length (c_queue s) + list_sum (map (fun t => weight (c_tasks s t)) l).
Lemma sum_set {T} (f : nat -> option (pc T)) u p l : NoDup l -> In u l ->
  (list_sum (map (fun t => weight (set_task f u p t)) l) + weight (f u) = list_sum (map (fun t => weight (f t)) l) + weight p)%nat.
Proof.
  induction 1 as [|x l Hx Hl IH]; intros Hu; [destruct Hu|]. cbn [map list_sum]. change (list_sum (?a :: ?b)) with (a + list_sum b)%nat. destruct (Nat.eq_dec x u) as [->|Ne].
  - lk. assert (E : map (fun t => weight (set_task f u p t)) l = map (fun t => weight (f t)) l).
    { apply map_ext_in. intros y Hy. assert (y <> u) by congruence. now lk. }
    rewrite E. lia.
  - destruct Hu as [Hu|Hu]; [contradiction|]. lk. specialize (IH Hu). lia.
Qed.
Lemma closed_step {T} (decode : bytes -> option T) l s e s' : NoDup l -> (forall t, c_tasks s t <> None -> In t l) -> c_open s = false ->
  (exists t, e = Step t \/ e = Drop t) -> cstep decode s e = Some s' ->
  (load l s' < load l s)%nat /\ c_open s' = false /\ (forall t, c_tasks s' t <> None -> In t l).
Proof.
  intros Nd Hl O (t & He) HS.
  assert (K : forall s1 p q, c_tasks s t = Some q -> c_tasks s1 = set_task (c_tasks s) t p -> c_open s1 = c_open s -> (length (c_queue s1) <= length (c_queue s))%nat ->
     (weight p < weight (Some q))%nat -> (load l s1 < load l s)%nat /\ c_open s1 = false /\ (forall t, c_tasks s1 t <> None -> In t l)).
  { intros s1 p q Hq E1 E2 E3 W. assert (It : In t l) by (apply Hl; congruence). split; [|split].
    - unfold load. rewrite E1. pose proof (sum_set (c_tasks s) t p l Nd It) as X. rewrite Hq in X. lia.
    - congruence.
    - intros u. rewrite E1. destruct (Nat.eq_dec u t) as [->|Ne]; [auto|]. lk. apply Hl. }
  assert (W : c_tasks s t <> None) by (destruct He as [-> | ->]; cbn in HS; destruct (c_tasks s t); discriminate || congruence).
  destruct (c_tasks s t) as [p|] eqn:ET; [|congruence]. destruct He as [-> | ->]; cbn in HS; rewrite ET in HS.
  - destruct p as [k|k c|k|k|k taken|k out]; cbn in HS.
    + injection HS as <-. eapply K; [exact eq_refl|reflexivity|reflexivity|reflexivity|]. destruct (_ <=? _); cbn; lia.
    + rewrite O in HS. injection HS as <-. eapply K; [exact eq_refl|reflexivity|reflexivity|reflexivity|]. cbn; lia.
    + injection HS as <-. eapply K; [exact eq_refl|reflexivity|reflexivity|reflexivity|]. cbn; lia.
    + destruct k as [|n]; destruct (c_lock s); try discriminate.
      * destruct (c_buf s); injection HS as <-; (eapply K; [exact eq_refl|reflexivity|reflexivity|reflexivity|]; cbn; lia).
      * injection HS as <-. eapply K; [exact eq_refl|reflexivity|reflexivity|reflexivity|]. destruct (_ =? _)%nat; cbn; lia.
    + destruct (c_queue s) as [|i q] eqn:EQ; [rewrite O in HS; injection HS as <-; eapply K; [exact eq_refl|reflexivity|reflexivity|cbn; rewrite EQ; reflexivity|cbn; lia]|].
      destruct i; try (injection HS as <-; split; [unfold load; cbn; rewrite EQ; cbn; lia|]; split; [exact O|exact Hl]).
      destruct (unpack decode d) as [ms|e|]; try (injection HS as <-; eapply K; [exact eq_refl|reflexivity|reflexivity|cbn; lia|cbn; lia]).
      destruct k as [|n]; [destruct ms|]; injection HS as <-; (eapply K; [exact eq_refl|reflexivity|reflexivity|cbn; lia|cbn; lia]).
    + injection HS as <-. eapply K; [exact eq_refl|reflexivity|reflexivity|reflexivity|cbn; lia].
  - destruct p; cbn in HS; try discriminate; injection HS as <-; (eapply K; [exact eq_refl|reflexivity|reflexivity|reflexivity|cbn; lia]).
Qed.
Lemma closed_bound {T} (decode : bytes -> option T) l h2 : forall s s2, NoDup l -> (forall t, c_tasks s t <> None -> In t l) -> c_open s = false ->
  only_continues h2 -> crun decode s h2 = Some s2 -> (length h2 + load l s2 <= load l s)%nat /\ c_open s2 = false.
Proof.
  induction h2 as [|e h2 IH]; intros s s2 Nd Hl O Hc R; cbn in R; [injection R as <-; auto|].
  destruct (cstep decode s e) as [s1|] eqn:HS; [|discriminate].
  destruct (closed_step decode l s e s1 Nd Hl O (Hc e (or_introl eq_refl)) HS) as (A & B & C).
  destruct (IH s1 s2 Nd C B) as [D F]; auto; [intros x Hx; apply Hc; now right|]. cbn [length]. split; [lia|exact F].
Qed.
Lemma load_start {T} l : forall s : cons T, (load l s <= length (c_queue s) + 5 * length l)%nat.
Proof.
  intros s. unfold load. enough (list_sum (map (fun t => weight (c_tasks s t)) l) <= 5 * length l)%nat by lia.
  induction l as [|x l IH]; [reflexivity|]. cbn [map length]. change (list_sum (?a :: ?b)) with (a + list_sum b)%nat.
  assert (weight (c_tasks s x) <= 5)%nat by (destruct (c_tasks s x) as [[]|]; cbn; lia). lia.
Qed.
(** Once the engine has ended, whatever the state and however the calls under way are
    scheduled, they make only boundedly many steps: no call waits forever. *)
Theorem C63_calls_end : forall T (decode : bytes -> option T) P h s h2 s2, reaches decode P h s -> c_open s = false ->
  only_continues h2 -> crun decode s h2 = Some s2 -> (length h2 <= length (c_queue s) + 5 * length (calls h))%nat.
Proof.
  intros T decode P h s h2 s2 HR O Hc R. pose proof (tasks_started decode P h s HR) as Hl. set (l := nodup Nat.eq_dec (calls h)).
  destruct (closed_bound decode l h2 s s2) as [X _]; auto; [apply NoDup_nodup|intros t Ht; apply nodup_In; auto|].
  pose proof (load_start l s) as Y. assert (length l <= length (calls h))%nat; [|lia].
  apply NoDup_incl_length; [apply NoDup_nodup|]. intros x Hx. now apply nodup_In in Hx.
Qed.
Print Assumptions C63_calls_end.
(** And while a call is under way, some call can go on. *)
Lemma closed_progress {T} (decode : bytes -> option T) s t : lock_ok s -> c_open s = false -> c_tasks s t <> None -> exists u s', cstep decode s (Step u) = Some s'.
Proof.
  intros L O Ht. unfold lock_ok in L.
  assert (G : forall u p, c_tasks s u = Some p -> holding p = true -> exists s', cstep decode s (Step u) = Some s').
  { intros u p Hu Hp. cbn. rewrite Hu. destruct p as [k|k c|k|k|k taken|k out]; try discriminate; cbn; [|eauto].
    destruct (c_queue s) as [|i q]; [rewrite O; eauto|]. destruct i; eauto. destruct (unpack decode d) as [ms|e|]; eauto. destruct k; [destruct ms|]; eauto. }
  destruct (c_lock s) as [u|] eqn:EL.
  - destruct L as [(p & Hp & Hh) _]. exists u. eapply G; eauto.
  - destruct (c_tasks s t) as [p|] eqn:ET; [|congruence]. exists t. destruct (holding p) eqn:Hh; [eapply G; eauto|]. cbn. rewrite ET. destruct p as [k|k c|k|k|k taken|k out]; try discriminate; cbn; eauto.
    + rewrite O. eauto.
    + destruct k; rewrite EL; [destruct (c_buf s); eauto|]. eauto.
Qed.
Theorem C63_some_call_goes_on : forall T (decode : bytes -> option T) P h s t, reaches decode P h s -> c_open s = false -> c_tasks s t <> None ->
  exists u s', cstep decode s (Step u) = Some s'.
Proof. intros T decode P h s t HR. apply closed_progress. exact (run_lock decode h _ _ (init_lock P) HR). Qed.
Print Assumptions C63_some_call_goes_on.
(** So every call returns, by its own steps and those of the other calls. *)
Theorem C63_all_calls_return : forall T (decode : bytes -> option T) P h s, reaches decode P h s -> c_open s = false ->
  exists h2 s2, (forall e, In e h2 -> exists t, e = Step t) /\ crun decode s h2 = Some s2 /\ quiet s2.
Proof.
  intros T decode P h s HR O. set (l := nodup Nat.eq_dec (calls h)).
  assert (Hl : forall t, c_tasks s t <> None -> In t l) by (intros t Ht; apply nodup_In; exact (tasks_started decode P h s HR t Ht)).
  assert (Nd : NoDup l) by apply NoDup_nodup. pose proof (run_lock decode h _ _ (init_lock P) HR) as L. clear HR. clearbody l.
  remember (load l s) as n eqn:En. assert (Hn : (load l s <= n)%nat) by lia. clear En. revert s L O Hl Hn.
  induction n as [|n IH]; intros s L O Hl Hn.
  - exists [], s. split; [intros e []|]. split; [reflexivity|]. intros t. destruct (c_tasks s t) as [p|] eqn:ET; [|reflexivity]. exfalso.
    assert (It : In t l) by (apply Hl; congruence). pose proof (sum_set (c_tasks s) t None l Nd It) as X. unfold load in Hn. rewrite ET in X. destruct p; cbn in X; lia.
  - assert (D : quiet s \/ exists t, In t l /\ c_tasks s t <> None).
    { assert (Z : (forall t, In t l -> c_tasks s t = None) \/ exists t, In t l /\ c_tasks s t <> None).
      { clear. induction l as [|x l [IH|(t & A & B)]]; [left; intros t []| |right; exists t; split; [now right|exact B]].
        destruct (c_tasks s x) as [p|] eqn:Ex; [right; exists x; split; [now left|congruence]|]. left. intros t [<-|A]; auto. }
      destruct Z as [Z|Z]; [left|right; exact Z]. intros t. destruct (c_tasks s t) as [p|] eqn:ET; [|reflexivity]. rewrite <- ET. apply Z. apply Hl. congruence. }
    destruct D as [D|(t & _ & Ht)]; [exists [], s; split; [intros e []|]; split; [reflexivity|exact D]|].
    destruct (closed_progress decode s t L O Ht) as (u & s1 & S1).
    destruct (closed_step decode l s (Step u) s1 Nd Hl O) as (A & B & C); eauto.
    destruct (IH s1) as (h2 & s2 & H1 & H2 & H3); auto; [eapply step_lock; eauto|lia|].
    exists (Step u :: h2), s2. split; [intros e [<-|He]; eauto|]. split; [cbn [crun]; rewrite S1; exact H2|exact H3].
Qed.
Print Assumptions C63_all_calls_return.

(** Nothing delivered is left: every further call fails with ChannelTerminated (but
    for next_batch of size 0, which may return nothing). *)
Theorem C63_then_every_call_fails : forall T (decode : bytes -> option T) P h s h2 s2, reaches decode P h s -> c_open s = false -> quiet s ->
  c_buf s = [] -> filter is_entry (c_queue s) = [] -> crun decode s h2 = Some s2 ->
  exists new, c_log s2 = c_log s ++ new /\
    forall o, In o new -> exists t k, o = Returned t k (Err ChannelTerminated) \/ (k = NextBatch 0 /\ o = Returned t k (Ok [])).
Proof.
  intros T decode P h s h2 s2 _ O Q B F R.
  set (okp := fun p : pc T => match p with AtRecv k taken => taken = [] /\ k <> NextBatch 0 | AtCount k out => k = NextBatch 0 /\ out = [] | _ => True end).
  set (I := fun s2 : cons T => c_open s2 = false /\ c_buf s2 = [] /\ filter is_entry (c_queue s2) = [] /\ (forall t p, c_tasks s2 t = Some p -> okp p) /\
    exists new, c_log s2 = c_log s ++ new /\
    forall o, In o new -> exists t k, o = Returned t k (Err ChannelTerminated) \/ (k = NextBatch 0 /\ o = Returned t k (Ok []))).
  assert (I0 : I s). { unfold I. repeat (split; [assumption|]). split; [intros t p X; rewrite (Q t) in X; discriminate|]. exists []. rewrite app_nil_r. split; [reflexivity|intros o []]. }
  enough (I s2) by (unfold I in *; tauto).
  assert (St : forall x e x', I x -> cstep decode x e = Some x' -> I x').
  { clear s2 R h2. intros x e x' (A1 & A2 & A3 & A4 & new & A5 & A6) HS.
    assert (K : forall y t p, c_open y = false -> c_buf y = [] -> filter is_entry (c_queue y) = [] -> c_tasks y = set_task (c_tasks x) t p ->
      match p with Some q => okp q | None => True end -> (c_log y = c_log x \/ exists o, c_log y = c_log x ++ [o] /\
        exists t k, o = Returned t k (Err ChannelTerminated) \/ (k = NextBatch 0 /\ o = Returned t k (Ok []))) -> I y).
    { intros y t p B1 B2 B3 B4 B5 B6. unfold I. repeat (split; [assumption|]). split.
      - intros u q. rewrite B4. destruct (Nat.eq_dec u t) as [->|Ne]; lk; [intros ->; exact B5|apply A4].
      - destruct B6 as [B6|(o & B6 & B7)]; [exists new; now rewrite B6|]. exists (new ++ [o]). rewrite B6, A5, <- app_assoc. split; [reflexivity|].
        intros o' X. apply in_app_iff in X as [X|[<-|[]]]; auto. }
    destruct e as [t k|t|t|i|]; cbn in HS.
    - destruct (c_tasks x t); [discriminate|]. injection HS as <-. eapply K; try reflexivity; auto; exact Logic.I.
    - destruct (c_tasks x t) as [p|] eqn:ET; [|discriminate]. pose proof (A4 t p ET) as Op. destruct p as [k|k c|k|k|k taken|k out]; cbn in HS.
      + injection HS as <-. eapply K; try reflexivity; auto. destruct (_ <=? _); exact Logic.I.
      + rewrite A1 in HS. injection HS as <-. eapply K; try reflexivity; auto; try exact Logic.I. right. eexists. split; [reflexivity|]. eauto.
      + injection HS as <-. eapply K; try reflexivity; auto; exact Logic.I.
      + destruct k as [|n]; destruct (c_lock x); try discriminate; rewrite A2 in HS.
        * injection HS as <-. eapply K; try reflexivity; auto. cbn. split; [reflexivity|discriminate].
        * unfold pop_up_to in HS. cbn [rev] in HS. rewrite firstn_nil, skipn_nil in HS. cbn [rev length] in HS. injection HS as <-. eapply K; try reflexivity; auto.
          destruct n; cbn; auto. split; [reflexivity|discriminate].
      + destruct Op as [-> Hk]. destruct (c_queue x) as [|i q] eqn:EQ; [rewrite A1 in HS; injection HS as <-; eapply K; try reflexivity; auto; try exact Logic.I; [cbn; rewrite EQ; reflexivity|right; eexists; split; [reflexivity|]; eauto]|].
        destruct i; cbn in A3; try discriminate; injection HS as <-; (unfold I; cbn; repeat (split; [assumption|]); exists new; auto).
      + destruct Op as [-> ->]. injection HS as <-. eapply K; try reflexivity; auto; try exact Logic.I. right. eexists. split; [reflexivity|]. eauto.
    - destruct (c_tasks x t) as [p|]; [|discriminate]. destruct p; cbn in HS; try discriminate; injection HS as <-; (eapply K; try reflexivity; auto; exact Logic.I).
    - rewrite A1 in HS. discriminate.
    - injection HS as <-. unfold I. cbn. repeat (split; [assumption || reflexivity|]). exists new. auto. }
  exact (keeps decode I St h2 s s2 I0 R).
Qed.
Print Assumptions C63_then_every_call_fails.

(** When the engine ends while the window is used up, the next call has to grant
    permits first and fails. So does every later one: messages that were delivered
    and decode stay in the channel for ever. *)
Theorem C63_delivered_messages_lost : forall T (decode : bytes -> option T) P h s h2 s2, reaches decode P h s -> c_open s = false -> quiet s ->
  c_permits s <= c_counter s -> crun decode s h2 = Some s2 ->
  pending decode s2 = pending decode s /\
  exists new, c_log s2 = c_log s ++ new /\ forall o, In o new -> exists t k, o = Returned t k (Err ChannelTerminated).
Proof.
  intros T decode P h s h2 s2 HR O Q C R. pose proof (quiet_unlocked s (run_lock decode h _ _ (init_lock P) HR) Q) as L.
  set (I := fun x : cons T => c_open x = false /\ c_permits x = c_permits s /\ c_counter x = c_counter s /\ c_buf x = c_buf s /\ c_queue x = c_queue s /\ c_lock x = None /\
    (forall t p, c_tasks x t = Some p -> match p with AtCheck _ | AtFlow _ _ => True | _ => False end) /\
    exists new, c_log x = c_log s ++ new /\ forall o, In o new -> exists t k, o = Returned t k (Err ChannelTerminated)).
  assert (I0 : I s). { unfold I. repeat (split; [assumption || reflexivity|]). split; [intros t p X; rewrite (Q t) in X; discriminate|]. exists []. rewrite app_nil_r. split; [reflexivity|intros o []]. }
  assert (St : forall x e x', I x -> cstep decode x e = Some x' -> I x').
  { clear s2 R h2. intros x e x' (A1 & A2 & A3 & A4 & A5 & A6 & A7 & new & A8 & A9) HS.
    assert (K : forall y t p, c_open y = c_open x -> c_permits y = c_permits x -> c_counter y = c_counter x -> c_buf y = c_buf x -> c_queue y = c_queue x -> c_lock y = c_lock x ->
      c_tasks y = set_task (c_tasks x) t p -> match p with Some (AtCheck _) | Some (AtFlow _ _) | None => True | _ => False end ->
      (c_log y = c_log x \/ exists t k, c_log y = c_log x ++ [Returned t k (Err ChannelTerminated)]) -> I y).
    { intros y t p B1 B2 B3 B4 B5 B6 B7 B8 B9. unfold I. repeat (split; [congruence|]). split.
      - intros u q. rewrite B7. destruct (Nat.eq_dec u t) as [->|Ne]; lk; [intros ->; destruct q; auto|apply A7].
      - destruct B9 as [B9|(t' & k' & B9)]; [exists new; now rewrite B9|]. exists (new ++ [Returned t' k' (Err ChannelTerminated)]). rewrite B9, A8, <- app_assoc. split; [reflexivity|].
        intros o' X. apply in_app_iff in X as [X|[<-|[]]]; eauto. }
    destruct e as [t k|t|t|i|]; cbn in HS.
    - destruct (c_tasks x t); [discriminate|]. injection HS as <-. eapply K; try reflexivity; auto; exact Logic.I.
    - destruct (c_tasks x t) as [p|] eqn:ET; [|discriminate]. pose proof (A7 t p ET) as Op. destruct p as [k|k c|k|k|k taken|k out]; try contradiction; cbn in HS.
      + injection HS as <-. eapply K; try reflexivity; auto. rewrite A2, A3. apply N.leb_le in C. rewrite C. exact Logic.I.
      + rewrite A1 in HS. injection HS as <-. eapply K; try reflexivity; auto; try exact Logic.I; right; exists t, k; reflexivity.
    - destruct (c_tasks x t) as [p|] eqn:ET; [|discriminate]. pose proof (A7 t p ET) as Op. destruct p; try contradiction; cbn in HS; try discriminate; injection HS as <-; (eapply K; try reflexivity; auto; exact Logic.I).
    - rewrite A1 in HS. discriminate.
    - injection HS as <-. unfold I. cbn. repeat (split; [assumption || reflexivity|]). exists new. auto. }
  destruct (keeps decode I St h2 s s2 I0 R) as (_ & _ & _ & B4 & B5 & B6 & _ & B8). split; [|exact B8].
  unfold pending, in_hand. rewrite B4, B5, B6, L. reflexivity.
Qed.
Print Assumptions C63_delivered_messages_lost.
Lemma serve_all_apart {T} (decode : bytes -> option T) P c mid data v n : decode data = Some v -> N.of_nat n <= P -> P < u32_max ->
  no_overlap decode (cons_init P) (serve_all n (InMessage (DSingle c mid data))).
Proof.
  intros HD HN HP. induction n as [|n IH]; [exact I|]. cbn [serve_all]. apply no_overlap_app. split; [apply IH; lia|].
  destruct (serve_many decode P c mid data v n HD) as (s & HR & (HQ & EP & EC & EB & EL & EQ & EO) & _); [lia|lia|]. rewrite HR. change (serve ?i) with ([Arrive i; Start 0%nat NextMessage] ++ repeat (Step 0%nat) 4).
  apply no_overlap_app. split.
  - cbn [no_overlap]. split; [exact I|]. cbn [cstep]. rewrite EO. split; [exact HQ|]. now destruct (c_tasks (with_queue _ _) 0%nat).
  - destruct (crun decode s _); [apply no_overlap_steps|exact I].
Qed.
(** This happens with every window: a message arrives just before the engine ends,
    after as many messages as the window holds. *)
Theorem C63_loss_reached : forall T (decode : bytes -> option T) P (mid : message) data v, 0 < P -> P < 2 ^ 32 -> decode data = Some v ->
  exists h s, only_next_message h /\ one_at_a_time decode P h /\ reaches decode P h s /\ c_open s = false /\ quiet s /\ c_permits s <= c_counter s /\
    N.of_nat (length (returned (c_log s))) = P /\ pending decode s = [mk_cmsg v mid].
Proof.
  intros T decode P mid data v HP HB HD. change (2 ^ 32) with u32_max in HB. set (i0 := InMessage (DSingle 1 mid data)).
  destruct (serve_many decode P 1 mid data v (N.to_nat P) HD) as (s & HR & (HQ & EP & EC & EB & EL & EQ & EO) & HG & HL & HF); [lia|lia|].
  exists (serve_all (N.to_nat P) i0 ++ [Arrive i0; Close]). eexists. split; [|split; [|split]].
  - intros t k X. apply in_app_or in X as [X|X]; [now apply (serve_all_next_message (N.to_nat P) i0 t)|]. destruct X as [X|[X|[]]]; discriminate.
  - apply no_overlap_app. split; [apply (serve_all_apart decode P 1 mid data v (N.to_nat P) HD); lia|]. unfold i0 at 1. rewrite HR. cbn [no_overlap cstep]. rewrite EO. repeat split.
  - unfold reaches. rewrite crun_app. unfold i0 at 1. rewrite HR. cbn [crun cstep]. rewrite EO. cbn. reflexivity.
  - cbn. split; [reflexivity|]. split; [exact HQ|]. split; [lia|]. split; [lia|]. unfold pending, in_hand. cbn. rewrite EL, EB, EQ. cbn. unfold stream. cbn. rewrite HD. reflexivity.
Qed.
Print Assumptions C63_loss_reached.
(** Two calls wait, one for an event and one for the first; the engine ends: both
    fail. Nothing is left then, and a third call fails too. *)
Definition z_two : list cev := [Start 0 NextMessage; Start 1 (NextBatch 2); Step 0; Step 1; Step 0; Close]%nat.
Example C63_meets : match crun (fun b => Some b) (cons_init 5) z_two with
  | Some s => c_open s = false /\ c_tasks s 0%nat <> None /\ c_tasks s 1%nat <> None /\ cstep (fun b => Some b) s (Step 1%nat) = None /\
      match crun (fun b => Some b) s [Step 0; Step 1; Step 1]%nat with
      | Some s2 => c_log s2 = [Returned 0%nat NextMessage (Err ChannelTerminated); Returned 1%nat (NextBatch 2) (Err ChannelTerminated)] /\
          c_tasks s2 0%nat = None /\ c_tasks s2 1%nat = None /\ c_buf s2 = [] /\ c_queue s2 = []
      | None => False end
  | None => False end.
Proof. vm_compute. split; [reflexivity|]. split; [discriminate|]. split; [discriminate|]. repeat split. Qed.
Example C63_loss_case : exists h s, reaches (fun b => Some b) 1 h s /\ c_open s = false /\ quiet s /\ c_permits s <= c_counter s /\ pending (fun b => Some b) s <> [].
Proof.
  destruct (C63_loss_reached bytes (fun b => Some b) 1 [(1, PInt 1); (2, PInt 2)] (str "a") (str "a") eq_refl eq_refl eq_refl) as (h & s & _ & _ & R & O & Q & C & _ & Pe).
  exists h, s. repeat (split; [assumption|]). rewrite Pe. discriminate.
Qed.
