(** C18 (numbering), C19 (order of sends), C20 (handshakes), C21 (lookup decision). *)
From Verif Require Import Bytes Errors Wire Proto Address Codec Message Client SpecClient.
From Coq Require Import Permutation.
Open Scope N_scope.

(** * Numbering *)
Lemma numbers_app f a b : numbers f (a ++ b) = numbers f a ++ numbers f b.
Proof. apply flat_map_app. Qed.
Lemma upto_S n : upto (S n) = upto n ++ [N.of_nat n].
Proof. unfold upto. now rewrite seq_S, map_app. Qed.
Lemma upto_length n : length (upto n) = n.
Proof. unfold upto. now rewrite map_length, seq_length. Qed.
Lemma upto_NoDup n : NoDup (upto n).
Proof. apply FinFun.Injective_map_NoDup; [intros x y H; lia|apply seq_NoDup]. Qed.

Definition numbered (f : outbound -> option N) (c : N) (l : list outbound) : Prop :=
  N.of_nat (length (numbers f l)) <= two64 ->
  numbers f l = upto (length (numbers f l)) /\ c = N.of_nat (length (numbers f l)) mod two64.

Lemma numbered_skip f c l o : numbered f c l -> f o = None -> numbered f c (l ++ [o]).
Proof. unfold numbered. intros H Ho. rewrite numbers_app. cbn. rewrite Ho. cbn. now rewrite app_nil_r. Qed.
Lemma numbered_next f c l o : numbered f c l -> f o = Some c -> numbered f (bump c) (l ++ [o]).
Proof.
  unfold numbered. intros H Ho. rewrite numbers_app. cbn. rewrite Ho. cbn. rewrite app_length. cbn. intros HL.
  destruct H as [E ->]; [lia|]. replace (length (numbers f l) + 1)%nat with (S (length (numbers f l))) by lia.
  rewrite upto_S, <- E. rewrite N.mod_small by lia. split; [reflexivity|]. unfold bump. f_equal. lia.
Qed.

Definition cl_inv (s : client_st) : Prop :=
  numbered request_number (request_id (cl_cnt s)) (cl_built s) /\
  numbered sequence_number (sequence_id (cl_cnt s)) (cl_built s) /\
  Permutation (cl_built s) (cl_queue s ++ map snd (cl_hand s)).

Lemma take_hand_perm t l o r : take_hand t l = Some (o, r) -> Permutation (map snd l) (o :: map snd r).
Proof.
  revert o r. induction l as [|[u x] l IH]; intros o r H; cbn in H; [discriminate|].
  destruct (t =? u)%nat; [inversion H; subst; reflexivity|].
  destruct (take_hand t l) as [[y l']|] eqn:E; [|discriminate]. inversion H; subst. cbn.
  rewrite (IH _ _ eq_refl). apply perm_swap.
Qed.
Lemma cl_step_inv id name s e s' : cl_step id name s e = Some s' -> cl_inv s -> cl_inv s'.
Proof.
  destruct s as [[rq sq] b q h]. unfold cl_inv. cbn. intros H (IR & IS & IP). destruct e as [t c|t]; cbn in H.
  - destruct (take_hand t h); [discriminate|].
    assert (HP : forall o, Permutation (b ++ [o]) (q ++ map snd (h ++ [(t, o)]))).
    { intros o. rewrite map_app, app_assoc. cbn. now apply Permutation_app_tail. }
    destruct c; inversion H; subst; cbn; (split; [|split; [|apply HP]]);
      first [apply numbered_next; [assumption|reflexivity] | apply numbered_skip; [assumption|reflexivity]].
  - destruct (take_hand t h) as [[o h']|] eqn:E; [|discriminate]. inversion H; subst; cbn.
    split; [assumption|split; [assumption|]].
    rewrite <- app_assoc. cbn. rewrite IP. apply Permutation_app_head. now apply take_hand_perm in E.
Qed.
Lemma cl_run_inv id name h : forall s s', cl_run id name s h = Some s' -> cl_inv s -> cl_inv s'.
Proof.
  induction h as [|e r IH]; intros s s' H I; cbn in H; [now inversion H; subst|].
  destruct (cl_step id name s e) eqn:E; [|discriminate]. eapply IH; eauto. eapply cl_step_inv; eauto.
Qed.
Lemma cl_init_inv : cl_inv client_init.
Proof. split; [|split]; [intros _; split; reflexivity|intros _; split; reflexivity|constructor]. Qed.

Lemma numbers_perm f a b : Permutation a b -> Permutation (numbers f a) (numbers f b).
Proof. apply Permutation_flat_map. Qed.

(** C18: under every interleaving of any calls by any tasks, the request numbers
    given out are 0, 1, 2, ... in the order the requests were built. *)
Theorem C18_request_numbers id name h s : cl_run id name client_init h = Some s ->
  let given := numbers request_number (cl_built s) in
  N.of_nat (length given) <= two64 -> given = upto (length given) /\ NoDup given.
Proof.
  intros H given HL. destruct (cl_run_inv _ _ _ _ _ H cl_init_inv) as (IR & _ & _).
  destruct (IR HL) as [E _]. fold given in E. split; [exact E|]. rewrite E. apply upto_NoDup.
Qed.
(** C18: likewise the sequence numbers of sends. *)
Theorem C18_sequence_numbers id name h s : cl_run id name client_init h = Some s ->
  let given := numbers sequence_number (cl_built s) in
  N.of_nat (length given) <= two64 -> given = upto (length given) /\ NoDup given.
Proof.
  intros H given HL. destruct (cl_run_inv _ _ _ _ _ H cl_init_inv) as (_ & IS & _).
  destruct (IS HL) as [E _]. fold given in E. split; [exact E|]. rewrite E. apply upto_NoDup.
Qed.
(** C18: what reaches the engine is what was built, each request once; so no two
    queued requests share a request number and no two sends a sequence number. *)
Theorem C18_queued_unique id name h s : cl_run id name client_init h = Some s ->
  N.of_nat (length (cl_built s)) <= two64 ->
  NoDup (numbers request_number (cl_queue s)) /\ NoDup (numbers sequence_number (cl_queue s)).
Proof.
  intros H HL. destruct (cl_run_inv _ _ _ _ _ H cl_init_inv) as (_ & _ & IP).
  assert (HB : forall f, (length (numbers f (cl_built s)) <= length (cl_built s))%nat).
  { intros f. generalize (cl_built s). intros l. induction l as [|o l IH]; cbn; [lia|]. rewrite app_length. destruct (f o); cbn; unfold numbers in IH; lia. }
  assert (HN : forall f, NoDup (numbers f (cl_built s)) -> NoDup (numbers f (cl_queue s))).
  { intros f HD. apply (Permutation_NoDup (numbers_perm f _ _ IP)) in HD. rewrite numbers_app in HD.
    revert HD. generalize (numbers f (map snd (cl_hand s))). induction (numbers f (cl_queue s)) as [|x l IH]; intros m HD; [constructor|].
    inversion HD; subst. constructor; [|eapply IH; eauto]. intros HI. apply H2. apply in_or_app. now left. }
  split; apply HN.
  - pose proof (HB request_number). apply (C18_request_numbers _ _ _ _ H). lia.
  - pose proof (HB sequence_number). apply (C18_sequence_numbers _ _ _ _ H). lia.
Qed.
Example C18_ex : exists s, cl_run 3 (str "c") client_init
  [Build 0 (CLookup (str "t")); Build 1 (CSend (str "a")); Enqueue 1; Build 2 (CAck []); Enqueue 0; Build 1 (CSend (str "b")); Enqueue 2; Enqueue 1] = Some s
  /\ numbers request_number (cl_built s) = [0; 1] /\ numbers sequence_number (cl_queue s) = [0; 1].
Proof. eexists. split; [reflexivity|]. split; reflexivity. Qed.

(** * Order of sends *)
Definition sn := numbers sequence_number.
Definition sends_of (h : list (nat * outbound)) : list (nat * outbound) :=
  filter (fun p => match sequence_number (snd p) with Some _ => true | None => false end) h.
Lemma sn_hand h : sn (map snd h) = sn (map snd (sends_of h)).
Proof.
  induction h as [|[t o] h IH]; [reflexivity|]. cbn. destruct (sequence_number o) eqn:E; cbn; rewrite ?E; cbn; unfold sn, numbers in IH; now rewrite IH.
Qed.
Lemma sends_of_app a b : sends_of (a ++ b) = sends_of a ++ sends_of b.
Proof. apply filter_app. Qed.
Lemma sn_app a b : sn (a ++ b) = sn a ++ sn b.
Proof. apply numbers_app. Qed.

Definition hand_ok (busy : option nat) (h : list (nat * outbound)) : Prop :=
  NoDup (map fst h) /\
  match busy with None => sends_of h = [] | Some t => exists o, sends_of h = [(t, o)] end.
Lemma take_hand_none t l : take_hand t l = None -> ~ In t (map fst l).
Proof.
  induction l as [|[u o] l IH]; cbn; [tauto|].
  destruct (Nat.eqb_spec t u); [discriminate|]. destruct (take_hand t l) as [[? ?]|]; [discriminate|].
  intros _ [H|H]; [congruence|now apply IH].
Qed.
Lemma take_hand_split t l o r : take_hand t l = Some (o, r) -> exists a b, l = a ++ (t, o) :: b /\ r = a ++ b.
Proof.
  revert o r. induction l as [|[u x] l IH]; intros o r H; cbn in H; [discriminate|].
  destruct (Nat.eqb_spec t u).
  - inversion H; subst. now exists [], r.
  - destruct (take_hand t l) as [[y l']|] eqn:E; [|discriminate]. inversion H; subst.
    destruct (IH _ _ eq_refl) as (a & b & -> & ->). now exists ((u, x) :: a), b.
Qed.
Lemma build_send id name s c : is_send c = match sequence_number (fst (build id name s c)) with Some _ => true | None => false end.
Proof. destruct c; reflexivity. Qed.

Lemma in_turn id name h : forall busy s s',
  sends_in_turn busy h -> cl_run id name s h = Some s' -> hand_ok busy (cl_hand s) ->
  sn (cl_built s) = sn (cl_queue s) ++ sn (map snd (cl_hand s)) ->
  sn (cl_built s') = sn (cl_queue s') ++ sn (map snd (cl_hand s')).
Proof.
  induction h as [|e r IH]; intros busy s s' HT HR HH HE; cbn in HR; [inversion HR; subst; auto|].
  destruct (cl_step id name s e) as [s1|] eqn:ES; [|discriminate]. destruct HH as [HD HH]. destruct e as [t c|t]; cbn in ES.
  - destruct (take_hand t (cl_hand s)) eqn:EH; [discriminate|]. apply take_hand_none in EH. cbn in HT.
    rewrite (build_send id name (cl_cnt s)) in HT.
    destruct (build id name (cl_cnt s) c) as [o n]. cbn in HT. inversion ES; subst; clear ES.
    assert (HD' : NoDup (map fst (cl_hand s ++ [(t, o)]))).
    { rewrite map_app. cbn. apply (Permutation_NoDup (l := t :: map fst (cl_hand s))); [apply Permutation_cons_append|now constructor]. }
    assert (HE' : sn (cl_built s ++ [o]) = sn (cl_queue s) ++ sn (map snd (cl_hand s ++ [(t, o)]))).
    { rewrite map_app, !sn_app, HE. change (map snd [(t, o)]) with [o]. symmetry. apply app_assoc. }
    destruct (sequence_number o) eqn:EO.
    + destruct HT as [-> HT]. apply (IH _ _ _ HT HR); [|exact HE']. split; [exact HD'|]. cbn [cl_hand].
      exists o. rewrite sends_of_app, HH. cbn. now rewrite EO.
    + apply (IH _ _ _ HT HR); [|exact HE']. split; [exact HD'|].
      assert (EZ : sends_of (cl_hand s ++ [(t, o)]) = sends_of (cl_hand s)) by (rewrite sends_of_app; cbn; rewrite EO; apply app_nil_r).
      cbn [cl_hand]. now rewrite EZ.
  - destruct (take_hand t (cl_hand s)) as [[o hd]|] eqn:EH; [|discriminate]. inversion ES; subst; clear ES. cbn in HT.
    destruct (take_hand_split _ _ _ _ EH) as (a & b & E & ->). rewrite E in HH, HE.
    assert (HM : map fst (a ++ (t, o) :: b) = map fst a ++ t :: map fst b) by (rewrite map_app; reflexivity).
    rewrite E, HM in HD.
    assert (HD' : NoDup (map fst (a ++ b))) by (rewrite map_app; apply NoDup_remove_1 in HD; exact HD).
    assert (HX : ~ In t (map fst (a ++ b))) by (rewrite map_app; apply NoDup_remove_2 in HD; exact HD).
    rewrite sends_of_app in HH. cbn in HH. fold (sends_of b) in HH.
    destruct (sequence_number o) eqn:EO.
    + assert (HB : busy = Some t /\ sends_of a = [] /\ sends_of b = []).
      { destruct busy as [u|].
        - destruct HH as [x HH]. destruct (sends_of a) as [|y a']; cbn in HH; [inversion HH; auto|].
          inversion HH as [[H1 H2]]. symmetry in H2. now apply app_cons_not_nil in H2.
        - symmetry in HH. now apply app_cons_not_nil in HH. }
      destruct HB as (-> & HA & HB). rewrite Nat.eqb_refl in HT. apply (IH _ _ _ HT HR).
      * split; [exact HD'|]. cbn [cl_hand]. now rewrite sends_of_app, HA, HB.
      * cbn [cl_built cl_queue cl_hand]. rewrite HE, (sn_hand (a ++ b)), (sn_hand (a ++ (t, o) :: b)), !sends_of_app, sn_app, HA, HB.
        assert (ES1 : sends_of ((t, o) :: b) = (t, o) :: sends_of b) by (cbn; rewrite EO; reflexivity).
        rewrite ES1, HB. cbn. now rewrite EO, !app_nil_r.
    + assert (EZ : sends_of (a ++ b) = sends_of a ++ sends_of b) by apply sends_of_app.
      assert (HE' : sn (cl_built s) = sn (cl_queue s ++ [o]) ++ sn (map snd (a ++ b))).
      { rewrite HE, sn_app, (sn_hand (a ++ b)), (sn_hand (a ++ (t, o) :: b)), !sends_of_app.
        assert (ES1 : sends_of ((t, o) :: b) = sends_of b) by (cbn; rewrite EO; reflexivity).
        rewrite ES1. assert (ES2 : sn [o] = []) by (cbn; rewrite EO; reflexivity). now rewrite ES2, app_nil_r. }
      destruct busy as [u|].
      * destruct HH as [x HH]. destruct (Nat.eqb_spec u t) as [->|NE].
        -- exfalso. apply HX. apply in_map_iff. exists (t, x). split; [reflexivity|].
           assert (HI : In (t, x) (sends_of (a ++ b))) by (rewrite EZ, HH; now left).
           now apply filter_In in HI.
        -- apply (IH _ _ _ HT HR); [|exact HE']. split; [exact HD'|]. cbn [cl_hand]. exists x. now rewrite EZ.
      * apply (IH _ _ _ HT HR); [|exact HE']. split; [exact HD'|]. cbn [cl_hand]. now rewrite EZ.
Qed.

Lemma prefix_upto a b n : a ++ b = upto n -> a = upto (length a).
Proof.
  intros H. assert (HL : (length a <= n)%nat) by (rewrite <- (upto_length n), <- H, app_length; lia).
  assert (E : firstn (length a) (upto n) = upto (length a)).
  { unfold upto. rewrite firstn_map. f_equal. replace n with (length a + (n - length a))%nat by lia.
    rewrite seq_app, firstn_app, seq_length, Nat.sub_diag. cbn. rewrite app_nil_r.
    rewrite <- (seq_length (length a) 0) at 1. apply firstn_all. }
  rewrite <- E, <- H, firstn_app, Nat.sub_diag, firstn_all. cbn. now rewrite app_nil_r.
Qed.

(** C19: if no send is begun while another one is between numbering and queueing
    (other calls may overlap in any way), the sends are queued in the order of
    their sequence numbers, without gaps. *)
Theorem C19_sends_in_order id name h s :
  cl_run id name client_init h = Some s -> sends_in_turn None h ->
  N.of_nat (length (numbers sequence_number (cl_built s))) <= two64 ->
  let q := numbers sequence_number (cl_queue s) in q = upto (length q).
Proof.
  intros H HT HL q. pose proof (in_turn _ _ _ None _ _ HT H) as HE. cbn in HE.
  destruct (C18_sequence_numbers _ _ _ _ H HL) as [EU _].
  unfold sn in HE. rewrite HE in EU.
  - eapply prefix_upto. exact EU.
  - split; [constructor|reflexivity].
  - reflexivity.
Qed.

(** C19: otherwise the order can be inverted: from every reachable state in which
    two tasks are idle, their sends can be queued with the later number first. *)
Theorem C19_overlap_can_invert id name h s t u a b :
  cl_run id name client_init h = Some s -> t <> u ->
  take_hand t (cl_hand s) = None -> take_hand u (cl_hand s) = None ->
  N.of_nat (length (cl_built s)) + 1 < two64 ->
  exists s', cl_run id name s [Build t (CSend a); Build u (CSend b); Enqueue u; Enqueue t] = Some s' /\
    exists n, cl_queue s' = cl_queue s ++ [OSend (SSingle name id (n + 1) b); OSend (SSingle name id n a)].
Proof.
  intros H HN Ht Hu HL. destruct (cl_run_inv _ _ _ _ _ H cl_init_inv) as (_ & IS & _).
  assert (HB : (length (numbers sequence_number (cl_built s)) <= length (cl_built s))%nat).
  { generalize (cl_built s). intros l. induction l as [|o l IH]; cbn; [lia|]. rewrite app_length. destruct (sequence_number o); cbn; unfold numbers in IH; lia. }
  destruct IS as [_ ES]; [lia|]. rewrite N.mod_small in ES by lia.
  destruct s as [[rq sq] bl q hd]. cbn in *. rewrite Ht. cbn.
  assert (HS : forall x l, take_hand x hd = None ->
            take_hand x (hd ++ l) = match take_hand x l with Some (o, r) => Some (o, hd ++ r) | None => None end).
  { clear. intros x l. induction hd as [|[v o] hd IH]; cbn; intros H; [now destruct (take_hand x l) as [[? ?]|]|].
    destruct (x =? v)%nat; [discriminate|]. destruct (take_hand x hd) as [[? ?]|]; [discriminate|].
    rewrite IH by reflexivity. now destruct (take_hand x l) as [[? ?]|]. }
  rewrite HS by assumption. cbn. destruct (Nat.eqb_spec u t); [congruence|]. cbn.
  rewrite <- app_assoc. rewrite HS by assumption. cbn. destruct (Nat.eqb_spec u t); [congruence|]. rewrite Nat.eqb_refl.
  cbn. rewrite HS by assumption. cbn. rewrite Nat.eqb_refl. eexists. split; [reflexivity|]. cbn.
  exists sq. rewrite <- app_assoc. cbn. unfold bump. rewrite N.mod_small by lia. reflexivity.
Qed.
Example C19_ex_turn : sends_in_turn None [Build 0 (CSend []); Build 1 (CAck []); Enqueue 0; Build 2 (CSend []); Enqueue 1; Enqueue 2].
Proof. cbn. auto. Qed.
Example C19_ex_inverted : exists s, cl_run 1 (str "p") client_init
  [Build 0 (CSend (str "a")); Build 1 (CSend (str "b")); Enqueue 1; Enqueue 0] = Some s /\
  numbers sequence_number (cl_queue s) = [1; 0].
Proof. eexists. split; reflexivity. Qed.

(** * Handshakes *)
Ltac reply_step rs r := destruct rs as [|[[| | | | | |r| | |]| |] rs]; try reflexivity; cbn.

(** C20: building a consumer is exactly the handshake connect, lookup, (behind a
    proxy: connect to the named broker, lookup), subscribe, flow: for every
    sequence of replies the same requests are made in the same order, each only
    after a good reply to the previous one, and the first bad reply is the result. *)
Theorem C20_consumer_handshake id name topic sub permits rs :
  exec (consumer_connect id name topic sub permits fresh) rs =
  walk (match asks_proxy rs with
        | None => direct_steps topic ++ subscribe_steps id topic sub permits 1
        | Some target => proxied_steps topic target ++ subscribe_steps id topic sub permits 2
        end) rs.
Proof.
  unfold consumer_connect, lookup_topic, subscribe_steps. rewrite (N.mul_comm 2).
  destruct rs as [|a rs]; [reflexivity|].
  destruct rs as [|b rs]; [now destruct a as [[]| |]|].
  destruct b as [[| | | | | |r1| | |]| |]; try now destruct a as [[]| |].
  destruct a as [[| | | | | | | | |]| |]; try (cbn; destruct (lr_proxy r1); reflexivity).
  destruct r1 as [rid url tls [ | | ] au [ | ]]; try reflexivity; cbn.
  - reply_step rs r2. reply_step rs r3. reply_step rs r4. reply_step rs r5.
  - reply_step rs r6. reply_step rs r7.
Qed.
(** C20: likewise for a producer, ending with the producer registration. *)
Theorem C20_producer_handshake id name topic rs :
  exec (producer_connect id name topic fresh) rs =
  walk (match asks_proxy rs with
        | None => direct_steps topic ++ producer_steps id name topic 1
        | Some target => proxied_steps topic target ++ producer_steps id name topic 2
        end) rs.
Proof.
  unfold producer_connect, lookup_topic.
  destruct rs as [|a rs]; [reflexivity|].
  destruct rs as [|b rs]; [now destruct a as [[]| |]|].
  destruct b as [[| | | | | |r9| | |]| |]; try now destruct a as [[]| |].
  destruct a as [[| | | | | | | | |]| |]; try (cbn; destruct (lr_proxy r9); reflexivity).
  destruct r9 as [rid url tls [ | | ] au [ | ]]; try reflexivity; cbn.
  - reply_step rs r10. reply_step rs r11. reply_step rs r12.
  - reply_step rs r13.
Qed.


(** C20 in plain terms, for any handshake [walk] describes: (1) the requests made
    are a prefix of the handshake; (2) a further request is made only if the
    verdicts on all earlier replies were good; (3) the result is Ok exactly when
    every step got a good reply; (4) a bad result is the first bad verdict. *)
Lemma walk_order steps : (forall s, In s steps -> snd s NotQueued = Err ChannelTerminated) -> forall rs,
  exists rest, map fst steps = fst (walk steps rs) ++ rest.
Proof.
  induction steps as [|[o v] steps IH]; intros HQ rs; cbn; [now exists []|].
  destruct rs as [|r rs]; cbn; [now exists (map fst steps)|].
  destruct IH with (rs := rs) as [rest E]; [intros s Hs; apply HQ; now right|].
  pose proof (HQ (o, v) (or_introl eq_refl)) as HN. cbn in HN.
  destruct r as [i| |]; [destruct (v (Resolved i))|destruct (v Cancelled)|rewrite HN];
    try (now exists (map fst steps)); try (now exists (o :: map fst steps)).
  all: destruct (walk steps rs) as [m res]; cbn in *; exists rest; now rewrite E.
Qed.
Lemma walk_after_good steps : forall rs n, (n < length (fst (walk steps rs)))%nat ->
  forall k, (k < n)%nat -> exists o v r, nth_error steps k = Some (o, v) /\ nth_error rs k = Some r /\ v r = Ok tt.
Proof.
  induction steps as [|[o v] steps IH]; intros rs n HL k HK; cbn in HL; [lia|].
  destruct rs as [|r rs]; cbn in HL; [lia|].
  destruct (v r) as [[]|e|] eqn:EV.
  - assert (HW : (Nat.pred n < length (fst (walk steps rs)))%nat).
    { destruct (walk steps rs) as [m res]. cbn in *. destruct r; cbn in HL; lia. }
    destruct k as [|k]; cbn; [eauto 10|]. apply (IH rs (Nat.pred n)); [exact HW|lia].
  - destruct r; cbn in HL; lia.
  - destruct r; cbn in HL; lia.
Qed.
Lemma walk_ok steps : forall rs, snd (walk steps rs) = Some (Ok tt) <->
  forall k o v, nth_error steps k = Some (o, v) -> exists r, nth_error rs k = Some r /\ v r = Ok tt.
Proof.
  induction steps as [|[o v] steps IH]; intros rs; cbn.
  - split; auto. intros _ [|k] o v H; discriminate.
  - destruct rs as [|r rs]; cbn.
    + split; [discriminate|]. intros H. destruct (H 0%nat o v eq_refl) as (r & Hr & _). discriminate.
    + destruct (v r) as [[]|e|] eqn:EV.
      * specialize (IH rs). destruct (walk steps rs) as [m res]. cbn in *. rewrite IH. split.
        -- intros H j o' v' Hk. destruct j as [|j]; cbn in Hk; [inversion Hk; subst; exists r; auto|]. apply (H j _ _ Hk).
        -- intros H k o' v' Hk. apply (H (S k) _ _ Hk).
      * cbn. split; [discriminate|]. intros H. destruct (H 0%nat o v eq_refl) as (r' & Hr & HV). cbn in Hr. inversion Hr; subst. congruence.
      * cbn. split; [discriminate|]. intros H. destruct (H 0%nat o v eq_refl) as (r' & Hr & HV). cbn in Hr. inversion Hr; subst. congruence.
Qed.
Lemma walk_failure steps : forall rs x, snd (walk steps rs) = Some x -> x <> Ok tt ->
  exists k o v r, nth_error steps k = Some (o, v) /\ nth_error rs k = Some r /\ v r = x /\
    (forall j, (j < k)%nat -> exists o' v' r', nth_error steps j = Some (o', v') /\ nth_error rs j = Some r' /\ v' r' = Ok tt).
Proof.
  induction steps as [|[o v] steps IH]; intros rs x HX HN; cbn in HX; [congruence|].
  destruct rs as [|r rs]; cbn in HX; [discriminate|].
  destruct (v r) as [[]|e|] eqn:EV.
  - assert (HX' : snd (walk steps rs) = Some x) by (destruct (walk steps rs); exact HX).
    destruct (IH rs x HX' HN) as (k & o' & v' & r' & H1 & H2 & H3 & H4).
    exists (S k), o', v', r'. repeat split; auto. intros [|j] Hj; cbn; [eauto 10|]. apply H4. lia.
  - cbn in HX. inversion HX; subst. exists 0%nat, o, v, r. repeat split; auto. intros j Hj; lia.
  - cbn in HX. inversion HX; subst. exists 0%nat, o, v, r. repeat split; auto. intros j Hj; lia.
Qed.

Definition consumer_path id topic sub permits (proxy : option bytes) : list step :=
  match proxy with
  | None => direct_steps topic ++ subscribe_steps id topic sub permits 1
  | Some target => proxied_steps topic target ++ subscribe_steps id topic sub permits 2
  end.
(** C20: the requests a consumer makes are a prefix of one of the two handshakes,
    and request n is made only after good replies to all the earlier ones. *)
Theorem C20_consumer_order id name topic sub permits rs :
  let made := fst (exec (consumer_connect id name topic sub permits fresh) rs) in
  let path := consumer_path id topic sub permits (asks_proxy rs) in
  (exists rest, map fst path = made ++ rest) /\
  (forall n k, (n < length made)%nat -> (k < n)%nat ->
     exists o v r, nth_error path k = Some (o, v) /\ nth_error rs k = Some r /\ v r = Ok tt).
Proof.
  rewrite C20_consumer_handshake. cbn zeta. fold (consumer_path id topic sub permits (asks_proxy rs)). split.
  - apply walk_order. intros s Hs. destruct (asks_proxy rs); cbn in Hs;
      repeat (destruct Hs as [<-|Hs]; [reflexivity|]); contradiction.
  - intros n k HL HK. eapply walk_after_good; eauto.
Qed.
(** C20: it succeeds exactly when every step got a good reply, and otherwise
    returns the verdict on the first bad reply. *)
Theorem C20_consumer_result id name topic sub permits rs :
  let res := snd (exec (consumer_connect id name topic sub permits fresh) rs) in
  let path := consumer_path id topic sub permits (asks_proxy rs) in
  (res = Some (Ok tt) <-> forall k o v, nth_error path k = Some (o, v) -> exists r, nth_error rs k = Some r /\ v r = Ok tt) /\
  (forall x, res = Some x -> x <> Ok tt ->
     exists k o v r, nth_error path k = Some (o, v) /\ nth_error rs k = Some r /\ v r = x /\
     (forall j, (j < k)%nat -> exists o' v' r', nth_error path j = Some (o', v') /\ nth_error rs j = Some r' /\ v' r' = Ok tt)).
Proof.
  rewrite C20_consumer_handshake. cbn zeta. fold (consumer_path id topic sub permits (asks_proxy rs)). split.
  - apply walk_ok.
  - intros x. apply walk_failure.
Qed.
(** C20, the exception: the verdict of the second lookup is ignored, a Failed (or
    Redirect) answer there does not stop the handshake. *)
Theorem C20_second_lookup_unchecked id name topic sub permits r1 r2 rid :
  lr_type r1 = LConnect -> lr_proxy r1 = true ->
  exec (consumer_connect id name topic sub permits fresh)
    [Resolved InConnected; Resolved (InLookup r1); Resolved InConnected; Resolved (InLookup r2); Resolved (InSuccess rid); Resolved InPong]
  = ([plain_connect; OLookup 0 topic; proxy_connect (lr_url r1); OLookup 1 topic;
      OSubscribe topic sub id 2 Shared; OFlow id (2 * permits)], Some (Ok tt)).
Proof.
  intros HT HP. destruct r1 as [a u t ty au px]. cbn in HT, HP. subst. rewrite C20_consumer_handshake. reflexivity.
Qed.

Definition lk ty proxy := mk_lookup 0 (str "pulsar://b:1") [] ty false proxy.
Example C20_ex_direct : exec (consumer_connect 7 (str "n") (str "t") (str "s") 250 fresh)
    [Resolved InConnected; Resolved (InLookup (lk LConnect false)); Resolved (InSuccess 1); Resolved InPong] =
  ([plain_connect; OLookup 0 (str "t"); OSubscribe (str "t") (str "s") 7 1 Shared; OFlow 7 500], Some (Ok tt)).
Proof. reflexivity. Qed.
Example C20_ex_stop : exec (producer_connect 7 (str "n") (str "t") fresh)
    [Resolved InConnected; Resolved (InLookup (lk LFailed false)); Resolved (InProducerSuccess 1 [])] =
  ([plain_connect; OLookup 0 (str "t")], Some (Err ConnectionFailed)).
Proof. reflexivity. Qed.

(** * C21: the lookup decision *)
Definition lookup_run (id : N) (name topic : bytes) (s : counters) (rs : list reply) :=
  exec (lookup_topic id name topic s (fun _ => Done (Ok tt))) rs.

(** C21: Connect without proxying succeeds at once; no request follows, whatever
    addresses the answer names. *)
Theorem C21_connect_direct id name topic s r rs :
  lr_type r = LConnect -> lr_proxy r = false ->
  lookup_run id name topic s (Resolved (InLookup r) :: rs) = ([OLookup (request_id s) topic], Some (Ok tt)).
Proof. intros HT HP. unfold lookup_run, lookup_topic. cbn. rewrite HT, HP. reflexivity. Qed.
(** C21: Connect with proxying: next comes a connect that (whatever the
    configuration) dials the configured service url and names the broker; only
    after it was answered the topic is looked up again. *)
Theorem C21_connect_proxied id name topic s r rs cfg :
  lr_type r = LConnect -> lr_proxy r = true ->
  lookup_run id name topic s (Resolved (InLookup r) :: rs) =
    (let (made, res) := walk [(proxy_connect (lr_url r), connected); (OLookup (bump (request_id s)) topic, lookup_any)] rs in
     (OLookup (request_id s) topic :: made, res)) /\
  fill_address cfg (Some (Proxy [] (lr_url r))) = Proxy (base_url (broker_address cfg)) (lr_url r).
Proof.
  intros HT HP. split; [|reflexivity]. unfold lookup_run, lookup_topic. cbn. rewrite HT, HP. cbn.
  reply_step rs r14. reply_step rs r15.
Qed.
(** C21: Failed is an error, Redirect a panic; neither makes another request. *)
Theorem C21_failed id name topic s r rs : lr_type r = LFailed ->
  lookup_run id name topic s (Resolved (InLookup r) :: rs) = ([OLookup (request_id s) topic], Some (Err ConnectionFailed)).
Proof. intros HT. unfold lookup_run, lookup_topic. cbn. rewrite HT. reflexivity. Qed.
Theorem C21_redirect_panics id name topic s r rs : lr_type r = LRedirect ->
  lookup_run id name topic s (Resolved (InLookup r) :: rs) = ([OLookup (request_id s) topic], Some Panic).
Proof. intros HT. unfold lookup_run, lookup_topic. cbn. rewrite HT. reflexivity. Qed.
(** C21: an answer whose type field is absent or holds an unknown value is read as
    Redirect, so it panics too. *)
Theorem C21_unknown_type_panics mc r : cmd_type (mc_cmd mc) = 24%Z -> get_m 24 (mc_cmd mc) = Some r ->
  (forall z, get_z 3 r = Some z -> z <> 1 /\ z <> 2)%Z ->
  exists l, to_inbound mc = Ok (InLookup l) /\
    forall id name topic s rs,
      lookup_run id name topic s (Resolved (InLookup l) :: rs) = ([OLookup (request_id s) topic], Some Panic).
Proof.
  intros HT HM HZ. unfold to_inbound. rewrite HT, HM. eexists. split; [reflexivity|].
  intros. apply C21_redirect_panics. cbn. unfold get_e.
  destruct (get_z 3 r) as [z|]; [|reflexivity]. destruct (HZ z eq_refl) as [H1 H2].
  match goal with |- context [if ?b then _ else _] => destruct b end; [|reflexivity].
  destruct z as [|[p|[p|p|]|]|p]; try reflexivity; congruence.
Qed.
Example C21_ex_unknown : exists l,
  to_inbound (mk_cmd [(1, PInt 24); (24, PMsg [(4, PInt 9)])] None) = Ok (InLookup l) /\ lr_type l = LRedirect.
Proof. eexists. split; reflexivity. Qed.

Print Assumptions C18_request_numbers.
Print Assumptions C18_sequence_numbers.
Print Assumptions C18_queued_unique.
Print Assumptions C19_sends_in_order.
Print Assumptions C19_overlap_can_invert.
Print Assumptions C20_consumer_handshake.
Print Assumptions C20_producer_handshake.
Print Assumptions C20_consumer_order.
Print Assumptions C20_consumer_result.
Print Assumptions C20_second_lookup_unchecked.
Print Assumptions C21_connect_direct.
Print Assumptions C21_connect_proxied.
Print Assumptions C21_failed.
Print Assumptions C21_redirect_panics.
Print Assumptions C21_unknown_type_panics.
