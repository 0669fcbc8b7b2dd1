(** C68: where the requests of a client go depends on its own requests only; a
    consumer or producer that has been built has introduced itself there. *)
From Verif Require Import Bytes Errors Wire Proto Codec SpecFrame SpecCodec Address Message SpecMessage Client SpecKeys SpecClient Engine SpecEngine SpecEngine2 Sink SpecStack SinkFacts EngineFacts EngineInv EngineReq EngineEv EngineConn EngineLog EngineView EngineQueue EngineRoute EngineGate EngineNet EngineLife EngineEx CodecFacts MessageFacts PropCodec PropMessage PropClient PropEngine PropEngine2 PropEngine3 PropEngine4 PropEngine6 PropStack PropReceipt.
Open Scope N_scope.

(** * The rule
    A client starts at the configured broker; a connect that asks for the proxy
    takes it, from this connect on, to the broker named, through the configured one. *)
Fixpoint goes (cfg : config) (home : baddr) (os : list outbound) : list baddr :=
  match os with
  | [] => []
  | OConnect c :: r =>
      match cn_addr c with
      | Some (Proxy _ target) => let a := Proxy (base_url (broker_address cfg)) target in a :: goes cfg a r
      | _ => home :: goes cfg home r
      end
  | _ :: r => home :: goes cfg home r
  end.

(** [a] is a subsequence of [b]. *)
Inductive subseq {A} : list A -> list A -> Prop :=
| sub_nil l : subseq [] l
| sub_take x a b : subseq a b -> subseq (x :: a) (x :: b)
| sub_skip x a b : subseq a b -> subseq a (x :: b).
(** Frame [mc] says what request [o] asks (its send time aside); a connect with its
    address filled in and with the plugin's credentials. *)
Definition says (cfg : config) (o : outbound) (mc : msg_cmd) : Prop := exists now, now < 2 ^ 64 /\
  match o with
  | OConnect c => exists d m, denotes now (OConnect (mk_connect d m (Some (fill_address cfg (cn_addr c))))) mc
  | _ => denotes now o mc
  end.
(** Among the frames [mcs] are, in this order, ones that say [os]. *)
Definition says_all (cfg : config) (os : list outbound) (mcs : list msg_cmd) : Prop :=
  exists ys, subseq ys mcs /\ Forall2 (says cfg) os ys.
(** Of the requests [os] those that want an answer and go to [a]. *)
Definition told (cfg : config) (a : baddr) (os : list outbound) : list outbound :=
  map fst (filter (fun p => baddr_eqb (snd p) a && asks (fst p)) (combine os (goes cfg (broker_address cfg) os))).
(** Client [c] got the replies [rs] to its requests [made] (the first of its requests). *)
Definition got_replies (l : list obs) (c : nat) (made : list outbound) (rs : list reply) : Prop :=
  initial made (requests c l) /\
  forall k n o r, nth_error (issued c l) k = Some n -> nth_error made k = Some o -> asks o = true -> nth_error rs k = Some r ->
    match r with Resolved i => exists ser, In (OAnswer n ser i) l | Cancelled => In (OCancel n) l | NotQueued => False end.

(** * Proof *)
Lemma trans_take E s e s' : trans E s e s' -> exists l, s_log s' = s_log s ++ l /\
  ((forall n, ~ In (OTake n) l) \/ exists c n o q l0, In c (s_clients s) /\ ch_up (s_ch s (rc_h c)) = (n, o) :: q /\ l = OTake n :: l0 /\ forall n, ~ In (OTake n) l0).
Proof.
  intros T. cases T; pj; rewrite ?moved_log; pj; rewrite <- ?app_assoc;
    try (exists []; rewrite app_nil_r; split; [reflexivity|left; cbn; tauto]);
    (eexists; split; [reflexivity|]);
    try (right; do 5 eexists; split; [eassumption|]; split; [subst; eassumption|]; split; [reflexivity|]);
    try left; intros ? Hin; cbn in Hin; rewrite ?in_app_iff in Hin;
    repeat (match goal with
            | H : _ \/ _ |- _ => destruct H
            | H : In _ (ends_log _ _) |- _ => apply ends_log_cancel in H as [? ?]
            | H : In _ (cancel_all _) |- _ => apply cancel_all_cancel in H as [? ?]
            | H : In _ (_ :: _) |- _ => destruct H
            | H : In _ (_ ++ _) |- _ => apply in_app_iff in H
            | H : In _ [] |- _ => destruct H
            | H : In _ (if ?b then _ else _) |- _ => destruct b
            | H : False |- _ => destruct H
            end; try discriminate; auto).
Qed.
Definition regged (l1 : list obs) (x : obs) (l2 : list obs) : Prop :=
  match x with OTake n => forall c o, In (OIssue c n o) l1 -> exists id, In (OReg c id) l1 | _ => True end.
Lemma reach_regged E h s : reach E h s -> every regged (s_log s).
Proof.
  intros H. refine (proj2 (run_ind E (fun h s => every regged (s_log s)) sys_init (wf_init E) _ _ h s H)).
  - intros l1 x l2 X. destruct l1; discriminate.
  - intros g t e t' Hg Wt IH Hs T Wt'. destruct (trans_take E t e t' T) as (l & -> & L). apply every_app; auto; [intros l1 x l2 l3; destruct x; auto|].
    destruct L as [L|(c & n & o & q & l0 & Hc & U & -> & L)].
    + apply chunk_all. intros l1 x l2 X. destruct x; cbn; auto. exfalso. eapply L; eauto.
    + cbn [chunk]. split.
      * intros c' o' X. pose proof (v_r E t (reach_all E g t Hg)) as R. destruct (r_up t R (rc_h c) n o) as (Y & _); [rewrite U; now left|].
        destruct (r_uniq t R _ _ _ _ _ X Y) as [-> _]. exists (rc_id c). apply registered_in. rewrite (g_reg t (reach_gate E g t Hg)).
        unfold pairs. apply in_map_iff. eauto.
      * apply chunk_all. intros l1 x l2 X. destruct x; cbn; auto. exfalso. eapply L; eauto.
Qed.
Definition after (cfg : config) (home : baddr) (os : list outbound) : baddr :=
  fold_left (fun a o => match o with
                        | OConnect c => match cn_addr c with Some (Proxy _ t) => Proxy (base_url (broker_address cfg)) t | _ => a end
                        | _ => a end) os home.
Lemma goes_app cfg os : forall home more, goes cfg home (os ++ more) = goes cfg home os ++ goes cfg (after cfg home os) more.
Proof.
  induction os as [|o os IH]; intros home more; [reflexivity|]. destruct o as [| |c| | | | | | |]; cbn [goes app after fold_left]; try (rewrite IH; reflexivity).
  destruct (cn_addr c) as [[]|]; rewrite IH; reflexivity.
Qed.
Lemma goes_length cfg os : forall home, length (goes cfg home os) = length os.
Proof. induction os as [|o os IH]; intros home; [reflexivity|]. destruct o as [| |c| | | | | | |]; cbn; auto. destruct (cn_addr c) as [[]|]; cbn; auto. Qed.
Lemma goes_nth cfg home os k o : nth_error os k = Some o ->
  nth_error (goes cfg home os) k = Some (after cfg (after cfg home (firstn k os)) [o]).
Proof.
  intros H. apply nth_error_split in H as (l1 & l2 & -> & <-). rewrite goes_app, nth_error_app2; rewrite goes_length; [|apply le_n].
  rewrite Nat.sub_diag, firstn_app, firstn_all, Nat.sub_diag, app_nil_r. cbn [goes nth_error after fold_left]. destruct o as [| |c| | | | | | |]; try reflexivity.
  destruct (cn_addr c) as [[]|]; reflexivity.
Qed.
Lemma after_snoc cfg home os o : after cfg home (os ++ [o]) = after cfg (after cfg home os) [o].
Proof. unfold after. now rewrite fold_left_app. Qed.
Lemma issue_nth c l : forall k, match nth_error (issued c l) k, nth_error (requests c l) k with
  | Some n, Some o => In (OIssue c n o) l | None, None => True | _, _ => False end.
Proof.
  induction l as [|x l IH]; intros k; [destruct k; exact Logic.I|].
  assert (G : (issued c (x :: l) = issued c l /\ requests c (x :: l) = requests c l) \/ exists n o, x = OIssue c n o /\ issued c (x :: l) = n :: issued c l /\ requests c (x :: l) = o :: requests c l).
  { destruct x; auto. unfold issued, requests. cbn [flat_map]. destruct (Nat.eqb_spec h c) as [->|]; auto. right. do 2 eexists. split; [reflexivity|]. split; reflexivity. }
  destruct G as [[-> ->]|(n & o & -> & -> & ->)].
  - specialize (IH k). destruct (nth_error (issued c l) k), (nth_error (requests c l) k); auto. now right.
  - destruct k as [|k]; cbn [nth_error]; [now left|]. specialize (IH k). destruct (nth_error (issued c l) k), (nth_error (requests c l) k); auto. now right.
Qed.
Lemma issued_in c l n : In n (issued c l) <-> exists o, In (OIssue c n o) l.
Proof.
  unfold issued. rewrite in_flat_map. split.
  - intros (x & X & Y). destruct x; try contradiction. destruct (Nat.eqb_spec h c) as [->|]; [|contradiction]. destruct Y as [->|[]]. eauto.
  - intros [o X]. eexists. split; [exact X|]. cbn. rewrite Nat.eqb_refl. now left.
Qed.
Lemma reg_id E c l id : In (OReg c id) l -> v_id (look (svc E) c l) <> None.
Proof.
  induction l as [|x l IH] using rev_ind; [intros []|]. intros H. rewrite look_snoc. apply in_app_iff in H as [H|[->|[]]].
  - specialize (IH H). destruct x; cbn [look_step]; auto.
    + destruct (h =? c)%nat; auto.
    + destruct o; auto. destruct (in_nat _ _); auto.
    + destruct i; auto. destruct (_ && _); auto.
    + destruct i; auto. destruct (h =? c)%nat; auto.
    + destruct (h =? c)%nat; auto. discriminate.
  - cbn [look_step]. rewrite Nat.eqb_refl. discriminate.
Qed.
Lemma filter_initial {A} (f : A -> bool) a b : initial a b -> initial (filter f a) (filter f b).
Proof. intros [r ->]. rewrite filter_app. eexists. reflexivity. Qed.
Section routed.
Variables (E : env) (h : list event) (s : sys) (c : nat).
Hypothesis (H : reach E h s) (Hn : newids h <= 2 ^ 64).
Let L := s_log s.
Let mine n := in_nat n (issued c L).
Let fm l1 := filter mine (forwarded l1).
Lemma fm_initial l1 : initial l1 L -> initial (fm l1) (issued c L).
Proof.
  intros I. destruct (reach_queues E h s H) as [Q (rest & T & _)]. apply (initial_trans _ (fm L)).
  - apply filter_initial. destruct I as [r ->]. unfold forwarded. rewrite flat_map_app. eexists. reflexivity.
  - exists (filter mine rest ++ map fst (ch_up (s_ch s c))). unfold fm. rewrite app_assoc, <- filter_app. unfold L. rewrite <- T. exact (q_up s Q c).
Qed.
Lemma routed l1 : initial l1 L ->
  (v_id (look (svc E) c l1) = None -> fm l1 = []) /\
  (v_id (look (svc E) c l1) <> None -> v_home (look (svc E) c l1) = Some (after (e_cfg E) (svc E) (firstn (length (fm l1)) (requests c L)))) /\
  (forall n a o k, In (OForward n a o) l1 -> nth_error (issued c L) k = Some n -> nth_error (goes (e_cfg E) (svc E) (requests c L)) k = Some a).
Proof.
  pose proof (reach_routes E h s H Hn) as Rt. pose proof (reach_entries E h s H) as En. pose proof (reach_regged E h s H) as Rg.
  pose proof (reach_all E h s H) as V. pose proof (v_r E s V) as R.
  induction l1 as [|x l1 IH] using rev_ind; intros I; [split; [reflexivity|]; split; [intros X; now elim X|intros n a o k []]|].
  assert (I1 : initial l1 L) by (destruct I as [r X]; exists (x :: r); rewrite X, <- app_assoc; reflexivity).
  destruct (IH I1) as (A1 & A2 & A3). clear IH.
  assert (Ex : exists r, s_log s = l1 ++ x :: r) by (destruct I as [r X]; exists r; unfold L in X; rewrite X, <- app_assoc; reflexivity). destruct Ex as [r Ex].
  pose proof (Rt _ _ _ Ex) as Rx. pose proof (En _ _ _ Ex) as Enx.
  rewrite look_snoc. unfold fm. rewrite forwarded_app, filter_app. fold (fm l1).
  assert (Same : v_id (look_step (svc E) c (look (svc E) c l1) x) = v_id (look (svc E) c l1) ->
                 v_home (look_step (svc E) c (look (svc E) c l1) x) = v_home (look (svc E) c l1) -> forwarded [x] = [] ->
    (v_id (look_step (svc E) c (look (svc E) c l1) x) = None -> fm l1 ++ filter mine (forwarded [x]) = []) /\
    (v_id (look_step (svc E) c (look (svc E) c l1) x) <> None -> v_home (look_step (svc E) c (look (svc E) c l1) x) =
       Some (after (e_cfg E) (svc E) (firstn (length (fm l1 ++ filter mine (forwarded [x]))) (requests c L)))) /\
    (forall n a o k, In (OForward n a o) (l1 ++ [x]) -> nth_error (issued c L) k = Some n -> nth_error (goes (e_cfg E) (svc E) (requests c L)) k = Some a)).
  { intros -> -> F. rewrite F, app_nil_r. split; [exact A1|]. split; [exact A2|]. intros n a o k X. apply in_app_iff in X as [X|[->|[]]]; [eauto|discriminate]. }
  destruct x; try (apply Same; [..|reflexivity]; reflexivity).
  - apply Same; [..|reflexivity]; cbn [look_step]; destruct (h0 =? c)%nat; reflexivity.
  - clear Same. change (forwarded [OForward n a o]) with [n]. cbn [filter].
    destruct Enx as (_ & _ & Tk & _ & q & Rq & Fq).
    destruct (mine n) eqn:Mn.
    + unfold mine in Mn. apply is_in_spec, issued_in in Mn as [q' Q'].
      assert (Ci : In (OIssue c n q) l1).
      { destruct Rq as [c' Rq]. assert (X : In (OIssue c' n q) (s_log s)) by (rewrite Ex; apply in_app_iff; auto). destruct (r_uniq s R _ _ _ _ _ X Q') as [-> _]. exact Rq. }
      assert (Id : v_id (look (svc E) c l1) <> None).
      { apply takes_in, in_split in Tk as (p1 & p2 & Tk). destruct (Rg p1 (OTake n) (p2 ++ OForward n a o :: r)) with (c := c) (o := q) as [id Y].
        - rewrite Ex, Tk, <- app_assoc. reflexivity.
        - destruct (En p1 (OTake n) (p2 ++ OForward n a o :: r)) as (_ & (q0 & c0 & Z) & _); [rewrite Ex, Tk, <- app_assoc; reflexivity|].
          destruct (r_uniq s R c0 n q0 c q) as [-> ->]; [rewrite Ex, Tk; apply in_app_iff; left; apply in_app_iff; auto|rewrite Ex; apply in_app_iff; auto|exact Z].
        - apply (reg_id E c l1 id). rewrite Tk. apply in_app_iff. auto. }
      pose proof (A2 Id) as Hm. destruct (fm_initial _ I) as [r' Fi]. unfold fm in Fi. rewrite forwarded_app, filter_app in Fi. change (forwarded [OForward n a o]) with [n] in Fi. cbn [filter] in Fi.
      assert (Mn' : mine n = true) by (apply is_in_spec, issued_in; eauto). rewrite Mn' in Fi. fold (fm l1) in Fi.
      assert (Nth : nth_error (issued c L) (length (fm l1)) = Some n).
      { rewrite Fi, <- app_assoc, nth_error_app2, Nat.sub_diag by apply le_n. reflexivity. }
      assert (NthR : nth_error (requests c L) (length (fm l1)) = Some q).
      { pose proof (issue_nth c L (length (fm l1))) as X. rewrite Nth in X. destruct (nth_error (requests c L) (length (fm l1))) as [q2|]; [|contradiction].
        destruct (r_uniq s R _ _ _ _ _ X Q') as [_ ->]. f_equal. assert (Y : In (OIssue c n q) (s_log s)) by (rewrite Ex; apply in_app_iff; auto). now destruct (r_uniq s R _ _ _ _ _ Y Q') as [_ ->]. }
      assert (Ga : a = after (e_cfg E) (after (e_cfg E) (svc E) (firstn (length (fm l1)) (requests c L))) [q]).
      { specialize (Rx c q Ci). assert (X : In (OIssue c n q) (s_log s)) by (rewrite Ex; apply in_app_iff; auto). apply (c_api E s (v_c E s V)) in X as [_ X].
        destruct q as [| |cr| | | | | | |]; cbn [after fold_left]; try congruence. cbn [api_request] in X. destruct (cn_auth_data cr), (cn_auth_method cr); try discriminate.
        destruct (cn_addr cr) as [[u|[|b u] t]|]; try discriminate; cbn [fill_address] in Rx.
        - destruct (baddr_eqb (Proxy _ t) (svc E)) eqn:Z; [apply baddr_eqb_spec in Z; discriminate|]. exact Rx.
        - unfold svc in Rx. rewrite baddr_eqb_refl in Rx. fold (svc E) in Rx. congruence. }
      assert (Fst : firstn (length (fm l1 ++ [n])) (requests c L) = firstn (length (fm l1)) (requests c L) ++ [q]).
      { rewrite app_length. cbn [length]. rewrite Nat.add_1_r. apply nth_error_split in NthR as (p1 & p2 & -> & Y). rewrite <- Y.
        rewrite firstn_app, firstn_all2 by lia. replace (S (length p1) - length p1)%nat with 1%nat by lia. rewrite firstn_app, firstn_all, Nat.sub_diag. cbn. now rewrite app_nil_r. }
      rewrite Fst, after_snoc. split; [|split].
      * intros X. exfalso. apply Id. rewrite <- X. cbn [look_step]. destruct o; try reflexivity. destruct (in_nat n _); reflexivity.
      * intros _. cbn [look_step]. rewrite <- Ga. assert (Mi : in_nat n (v_mine (look (svc E) c l1)) = true) by (apply is_in_spec, look_mine; eauto). rewrite Mi.
        unfold formed in Fq. destruct q as [| |cr| | | | | | |]; try (subst o; cbn [v_home]; rewrite Hm, Ga; reflexivity).
        destruct Fq as (d & m & -> & _). reflexivity.
      * intros n0 a0 o0 k X Y. apply in_app_iff in X as [X|[[= <- <- <-]|[]]]; [eauto|].
        assert (k = length (fm l1)) as ->.
        { apply (proj1 (NoDup_nth_error (issued c L)) (issued_nodup E h s c H)); [apply nth_error_Some; congruence|congruence]. }
        rewrite (goes_nth _ _ _ _ _ NthR). now rewrite <- Ga.
    + rewrite app_nil_r. assert (Mi : in_nat n (v_mine (look (svc E) c l1)) = false).
      { destruct (in_nat n (v_mine (look (svc E) c l1))) eqn:X; auto. apply is_in_spec, look_mine in X as [o' X]. exfalso.
        assert (Y : mine n = true) by (apply is_in_spec, issued_in; exists o'; unfold L; rewrite Ex; apply in_app_iff; auto). congruence. }
      assert (Lk : look_step (svc E) c (look (svc E) c l1) (OForward n a o) = look (svc E) c l1) by (cbn [look_step]; rewrite Mi; destruct o; reflexivity).
      rewrite Lk. split; [exact A1|]. split; [exact A2|]. intros n0 a0 o0 k X Y. apply in_app_iff in X as [X|[[= <- <- <-]|[]]]; [eauto|].
      apply nth_error_In in Y. exfalso. assert (Z : mine n = true) by (now apply is_in_spec). congruence.
  - apply Same; [..|reflexivity]; cbn [look_step]; destruct i; try reflexivity; destruct (_ && _); reflexivity.
  - apply Same; [..|reflexivity]; cbn [look_step]; destruct i; try reflexivity; destruct (_ =? _)%nat; reflexivity.
  - destruct (Nat.eq_dec h0 c) as [->|Hne]; [|apply Same; [..|reflexivity]; cbn [look_step]; rewrite (proj2 (Nat.eqb_neq h0 c) Hne); reflexivity].
    cbn [look_step]. rewrite Nat.eqb_refl.
    clear Same. cbn in Rx. rewrite (A1 Rx). split; [discriminate|]. split; [reflexivity|]. intros n a o k X. apply in_app_iff in X as [X|[X|[]]]; [eauto|discriminate].
Qed.
End routed.
(** The connection a request is forwarded to is determined by the requests its client
    has made so far: neither the schedule, nor other clients, nor any broker, nor the
    credentials change it. *)
Theorem C68_route : forall E h s c k n a o, reach E h s -> newids h <= 2 ^ 64 ->
  nth_error (issued c (s_log s)) k = Some n -> In (OForward n a o) (s_log s) ->
  nth_error (goes (e_cfg E) (broker_address (e_cfg E)) (requests c (s_log s))) k = Some a.
Proof.
  intros E h s c k n a o H Hn Hk Hf. destruct (routed E h s c H Hn (s_log s)) as (_ & _ & R); [exists []; now rewrite app_nil_r|]. eauto.
Qed.
(** The same for what is written. *)
Theorem C68_written_where : forall E h s c k n a o ok, reach E h s -> newids h <= 2 ^ 64 ->
  nth_error (issued c (s_log s)) k = Some n -> In (OWrite a (Some n) o ok) (s_log s) ->
  nth_error (goes (e_cfg E) (broker_address (e_cfg E)) (requests c (s_log s))) k = Some a.
Proof.
  intros E h s c k n a o ok H Hn Hk Hw. apply in_split in Hw as (l1 & l2 & El). pose proof (reach_entries E h s H _ _ _ El) as X. cbn in X.
  apply (C68_route E h s c k n a o H Hn Hk). rewrite El. apply in_app_iff. auto.
Qed.
Print Assumptions C68_route.
Print Assumptions C68_written_where.

(** * Handshakes *)
Lemma subseq_in {A} (a b : list A) x : subseq a b -> In x a -> In x b.
Proof. induction 1; cbn; [tauto| |auto]. intros [->|H1]; auto. Qed.
Lemma subseq_filter {A} (f : A -> bool) a b : subseq a b -> (forall x, In x a -> f x = true) -> subseq a (filter f b).
Proof.
  induction 1 as [|x a b H IH|x a b H IH]; intros F; cbn [filter]; [constructor| |].
  - rewrite (F x) by now left. constructor. apply IH. intros y Y. apply F. now right.
  - destruct (f x); [constructor|]; auto.
Qed.
Lemma subseq_of_filter {A} (f : A -> bool) a b : subseq a (filter f b) -> subseq a b.
Proof.
  revert a. induction b as [|x b IH]; intros a H; [exact H|]. cbn [filter] in H. destruct (f x); [|constructor; auto].
  inversion H; subst; constructor; auto.
Qed.
Lemma subseq_initial {A} (a w r : list A) : NoDup (w ++ r) -> subseq a (w ++ r) -> (forall x, In x a -> In x w) -> subseq a w.
Proof.
  revert a. induction w as [|y w IH]; intros a Nd H F.
  - destruct a as [|x a]; [constructor|]. destruct (F x); now left.
  - cbn [app] in *. inversion Nd as [|? ? N1 N2]; subst. inversion H; subst; [constructor| |].
    + constructor. apply IH; auto. intros x X. destruct (F x); [now right| |auto]. subst x. exfalso. apply N1. eapply subseq_in; eauto.
    + constructor. apply IH; auto. intros x X. destruct (F x X) as [<-|Y]; auto. exfalso. apply N1. eapply subseq_in; eauto.
Qed.
Lemma subseq_srcs w : forall ns, subseq ns (srcs w) -> exists xs, subseq xs w /\ Forall2 (fun n x => fst x = Some n) ns xs.
Proof.
  induction w as [|[src o] w IH]; intros ns H.
  - inversion H; subst. exists []. split; constructor.
  - change (srcs ((src, o) :: w)) with ((match src with Some n => [n] | None => [] end) ++ srcs w) in H. destruct src as [n|]; cbn [app] in H.
    + inversion H as [|? ns' ? H'|? ? ? H']; subst.
      * exists []. split; constructor.
      * destruct (IH _ H') as (xs & A & B). exists ((Some n, o) :: xs). split; constructor; auto.
      * destruct (IH _ H') as (xs & A & B). exists xs. split; [now constructor|auto].
    + destruct (IH _ H) as (xs & A & B). exists xs. split; [now constructor|auto].
Qed.
Lemma subseq_forall2 {A B} (R : A -> B -> Prop) w m : Forall2 R w m -> forall xs, subseq xs w -> exists ys, subseq ys m /\ Forall2 R xs ys.
Proof.
  induction 1 as [|x y w m Hr F IH]; intros xs H.
  - inversion H; subst. exists []. split; constructor.
  - inversion H as [|? ? ? H'|? ? ? H']; subst.
    + exists []. split; constructor.
    + destruct (IH _ H') as (ys & I1 & I2). exists (y :: ys). split; constructor; auto.
    + destruct (IH _ H') as (ys & I1 & I2). exists ys. split; [now constructor|auto].
Qed.
Lemma told_pairs a : forall (os : list outbound) (ds : list baddr) (ns : list nat), length ds = length os -> (length os <= length ns)%nat ->
  exists ps, map snd ps = map fst (filter (fun p => baddr_eqb (snd p) a && asks (fst p)) (combine os ds)) /\ subseq (map fst ps) ns /\
    forall n o, In (n, o) ps -> exists k, nth_error ns k = Some n /\ nth_error os k = Some o /\ nth_error ds k = Some a /\ asks o = true.
Proof.
  induction os as [|o os IH]; intros ds ns L1 L2.
  - exists []. split; [reflexivity|]. split; [constructor|]. intros n o [].
  - destruct ds as [|d ds]; [discriminate|]. destruct ns as [|n ns]; [cbn in L2; lia|]. cbn [length] in *.
    destruct (IH ds ns) as (ps & P1 & P2 & P3); [lia|lia|]. cbn [combine filter fst snd].
    destruct (baddr_eqb d a && asks o) eqn:C.
    + exists ((n, o) :: ps). cbn [map fst snd]. split; [now rewrite P1|]. split; [now constructor|]. intros n' o' [[= <- <-]|X].
      * apply andb_true_iff in C as [C1 C2]. apply baddr_eqb_spec in C1. subst d. exists 0%nat. auto.
      * destruct (P3 _ _ X) as (k & K). exists (S k). exact K.
    + exists ps. split; [exact P1|]. split; [now constructor|]. intros n' o' X. destruct (P3 _ _ X) as (k & K). exists (S k). exact K.
Qed.
Lemma issued_requests c l : length (issued c l) = length (requests c l).
Proof.
  induction l as [|x l IH]; [reflexivity|]. unfold issued, requests in *. cbn [flat_map]. rewrite !app_length, IH. destruct x; auto. destruct (_ =? _)%nat; auto.
Qed.
(** If the connection has written every one of these requests that goes to [a], its
    broker reads them in order. *)
Lemma told_read E h s c a io made reads : reach E h s -> newids h <= 2 ^ 64 -> initial made (requests c (s_log s)) ->
  (forall k n o, nth_error (issued c (s_log s)) k = Some n -> nth_error made k = Some o -> asks o = true -> exists b o' ok, In (OWrite b (Some n) o' ok) (s_log s)) ->
  writes_succeed E a io h -> (forall n o, In (n, o) (queued a (s_log s)) -> sendable_request o) -> concat reads = wire E a io h ->
  exists mcs, stream_items reads false = map IFrame mcs /\ says_all (e_cfg E) (told (e_cfg E) a made) mcs.
Proof.
  intros H Hn I W Ws Q C. destruct (C60_wire_bytes E h s a io reads H Ws Q C) as (mcs & M1 & M2). exists mcs. split; [exact M1|].
  pose proof (v_r E s (reach_all E h s H)) as R.
  destruct (told_pairs a made (goes (e_cfg E) (broker_address (e_cfg E)) made) (issued c (s_log s))) as (ps & P1 & P2 & P3).
  { apply goes_length. } { rewrite issued_requests. destruct I as [r ->]. rewrite app_length. lia. }
  unfold told. rewrite <- P1.
  assert (Go : forall k b, nth_error (goes (e_cfg E) (broker_address (e_cfg E)) made) k = Some b -> nth_error (goes (e_cfg E) (broker_address (e_cfg E)) (requests c (s_log s))) k = Some b).
  { intros k b X. destruct I as [r ->]. rewrite goes_app, nth_error_app1; auto. apply nth_error_Some. congruence. }
  assert (Wr : forall n o, In (n, o) ps -> In (OIssue c n o) (s_log s) /\ exists o' ok, In (OWrite a (Some n) o' ok) (s_log s)).
  { intros n o X. destruct (P3 n o X) as (k & K1 & K2 & K3 & K4). split.
    - pose proof (issue_nth c (s_log s) k) as Y. rewrite K1 in Y. rewrite (initial_nth _ _ _ _ I K2) in Y. exact Y.
    - destruct (W k n o K1 K2 K4) as (b & o' & ok & Y). pose proof (C68_written_where E h s c k n b o' ok H Hn K1 Y) as Z. rewrite (Go _ _ K3) in Z. injection Z as ->. eauto. }
  assert (Inw : forall n o ok, In (OWrite a (Some n) o ok) (s_log s) -> In n (wrote a (s_log s))).
  { intros n o ok X. unfold wrote. apply in_flat_map. eexists. split; [exact X|]. cbn. rewrite baddr_eqb_refl. now left. }
  assert (Sub : subseq (map fst ps) (wrote_for c a (s_log s))).
  { destruct (C39_wire_order E h s c a H) as [r O]. eapply (subseq_initial _ _ r).
    - rewrite <- O. apply NoDup_filter. eapply issued_nodup; eauto.
    - rewrite <- O. apply subseq_filter; [exact P2|]. intros n X. apply in_map_iff in X as ([n' o] & <- & X). destruct (Wr _ _ X) as [_ (o' & ok & Y)].
      apply in_split in Y as (l1 & l2 & El). pose proof (reach_entries E h s H _ _ _ El) as Z. cbn in Z. apply is_in_spec. unfold sent_to. apply in_flat_map.
      exists (OForward n' a o'). split; [rewrite El; apply in_app_iff; auto|]. rewrite baddr_eqb_refl. now left.
    - intros n X. apply in_map_iff in X as ([n' o] & <- & X). destruct (Wr _ _ X) as [Y (o' & ok & Z)]. apply filter_In. split; [eauto|]. apply is_in_spec, issued_in. eauto. }
  unfold wrote_for in Sub. apply subseq_of_filter in Sub. rewrite <- srcs_written in Sub. apply subseq_srcs in Sub as (xs & X1 & X2).
  destruct (subseq_forall2 _ _ _ M2 _ X1) as (ys & Y1 & Y2). exists ys. split; [exact Y1|].
  assert (Fx : Forall2 (fun p x => In p ps /\ fst x = Some (fst p) /\ In x (written a (s_log s))) ps xs).
  { clear - X1 X2. assert (G : forall qs xs, Forall2 (fun n x => fst x = Some n) (map fst qs) xs -> incl qs ps -> incl xs (written a (s_log s)) ->
      Forall2 (fun p x => In p ps /\ fst x = Some (fst p) /\ In x (written a (s_log s))) qs xs).
    { induction qs as [|q qs IH]; intros zs F I1 I2; inversion F; subst; constructor.
      - split; [apply I1; now left|]. split; [assumption|apply I2; now left].
      - apply IH; auto; intros z Z; [apply I1|apply I2]; now right. }
    apply G; [exact X2|intros z Z; exact Z|]. intros z Z. eapply subseq_in; eauto. }
  clear - Fx Y2 H R Wr. revert ys Y2. induction Fx as [|[n o] x ps' xs (A1 & A2 & A3) Fx IH]; intros ys Y2; inversion Y2 as [|? y ? ys' B1 B2]; subst; constructor; [|now apply IH].
  destruct x as [src o']. cbn [fst snd] in *. subst src. destruct B1 as (now & Hw & D). cbn [snd] in D.
  unfold written in A3. apply in_flat_map in A3 as (z & Z1 & Z2). destruct z; try contradiction. destruct (baddr_eqb a0 a) eqn:B; [|contradiction]. destruct Z2 as [[= -> ->]|[]].
  destruct (C39_commands_unchanged E h s a0 n o' ok H Z1) as (q & (c1 & Rq) & Fq).
  destruct (Wr n o A1) as [Io _]. destruct (r_uniq s R _ _ _ _ _ Io Rq) as [_ <-]. exists now. split; [exact Hw|].
  destruct o; try (rewrite Fq in D; exact D). destruct Fq as (d & m & ->). eauto.
Qed.
(** An answered request has been written. *)
Lemma answered_written E h s reply n ser i : reach E h s -> no_collision (s_log s) -> honest (s_log s) reply -> In (OAnswer n ser i) (s_log s) ->
  exists a o ok, In (OWrite a (Some n) o ok) (s_log s).
Proof.
  intros H Nc Ho A. pose proof (C35_answers_go_to_their_request E h s reply H Nc Ho n ser i A) as Rn.
  apply in_split in A as (l1 & l2 & El). destruct (C34_answer_of_its_kind E h s _ _ _ _ _ H El) as (l0 & a & i0 & k & L & Ar & Se & _ & An).
  assert (An0 : answers i0 k).
  { destruct i0; cbn [seen_as] in Se; try (subst i; exact An). destruct Se as (r' & -> & _). destruct k; try contradiction. exact An. }
  apply in_split in Ar as (p1 & p2 & Ar). destruct Ho as [Ho _]. destruct (Ho p1 a ser i0 (p2 ++ [OHandle a ser i0] ++ OAnswer n ser i :: l2) k) as (o & okw & W & _); auto.
  { rewrite El, L, Ar, <- !app_assoc. reflexivity. }
  rewrite Rn in W. exists a, o, okw. rewrite El, L, Ar, <- !app_assoc. apply in_app_iff. auto.
Qed.
Lemma walk_all path : forall rs made, (forall o v, In (o, v) path -> v NotQueued <> Ok tt /\ (asks o = true -> forall r, v r = Ok tt -> exists i, r = Resolved i)) ->
  walk path rs = (made, Some (Ok tt)) -> made = map fst path /\ forall k o, nth_error made k = Some o -> asks o = true -> exists i, nth_error rs k = Some (Resolved i).
Proof.
  induction path as [|[o v] path IH]; intros rs made F W.
  - destruct rs; injection W as <-; split; auto; intros [|k]; discriminate.
  - destruct rs as [|r rs]; [discriminate|]. cbn [walk] in W. destruct (F o v) as [F1 F2]; [now left|].
    destruct (v r) as [[]| |] eqn:V; [|injection W as _ W; discriminate|injection W as _ W; discriminate].
    destruct (walk path rs) as [m res] eqn:Wp. destruct r; try congruence; injection W as <- ->; (destruct (IH rs m) as [I1 I2]; [intros ? ? X; apply F; now right|exact Wp|]).
    all: split; [cbn [map fst]; now rewrite I1|]; intros [|k] o' X Y; cbn [nth_error] in *; [|now apply (I2 k o')].
    all: injection X as <-; destruct (F2 Y _ V) as [j J]; exists j; now rewrite J.
Qed.
Lemma expect_fine good : expect good NotQueued <> Ok tt /\ forall r, expect good r = Ok tt -> exists i, r = Resolved i.
Proof. split; [discriminate|]. intros [i| |] X; try discriminate. eauto. Qed.
(** A handshake that ends well has been read. *)
Lemma handshake_read E h s c path rs made reply a io reads : reach E h s -> newids h <= 2 ^ 64 ->
  (forall o v, In (o, v) path -> v NotQueued <> Ok tt /\ (asks o = true -> forall r, v r = Ok tt -> exists i, r = Resolved i)) ->
  walk path rs = (made, Some (Ok tt)) -> got_replies (s_log s) c made rs -> no_collision (s_log s) -> honest (s_log s) reply ->
  writes_succeed E a io h -> (forall n o, In (n, o) (queued a (s_log s)) -> sendable_request o) -> concat reads = wire E a io h ->
  exists mcs, stream_items reads false = map IFrame mcs /\ says_all (e_cfg E) (told (e_cfg E) a (map fst path)) mcs.
Proof.
  intros H Hn F W [G1 G2] Nc Ho Ws Q C. destruct (walk_all path rs made F W) as [-> R].
  apply (told_read E h s c a io (map fst path) reads); auto. intros k n o K1 K2 K3. destruct (R k o K2 K3) as [i Ri].
  destruct (G2 k n o _ K1 K2 K3 Ri) as [ser A]. eapply answered_written; eauto.
Qed.
Lemma subscribe_fine id topic sub permits rid o v : In (o, v) (subscribe_steps id topic sub permits rid) ->
  v NotQueued <> Ok tt /\ (asks o = true -> forall r, v r = Ok tt -> exists i, r = Resolved i).
Proof.
  intros [[= <- <-]|[[= <- <-]|[]]]; [destruct (expect_fine (fun i => match i with InSuccess _ => Some (Ok tt) | _ => None end)); split; auto|].
  split; [discriminate|discriminate].
Qed.
Lemma direct_fine topic o v : In (o, v) (direct_steps topic) -> v NotQueued <> Ok tt /\ (asks o = true -> forall r, v r = Ok tt -> exists i, r = Resolved i).
Proof. intros [[= <- <-]|[[= <- <-]|[]]]; (split; [discriminate|intros _ [i| |] X; try discriminate X; eauto]). Qed.
Lemma proxied_fine topic t o v : In (o, v) (proxied_steps topic t) -> v NotQueued <> Ok tt /\ (asks o = true -> forall r, v r = Ok tt -> exists i, r = Resolved i).
Proof. intros [[= <- <-]|[[= <- <-]|[[= <- <-]|[[= <- <-]|[]]]]]; (split; [discriminate|intros _ [i| |] X; try discriminate X; eauto]). Qed.
Lemma producer_fine id name topic rid o v : In (o, v) (producer_steps id name topic rid) -> v NotQueued <> Ok tt /\ (asks o = true -> forall r, v r = Ok tt -> exists i, r = Resolved i).
Proof. intros [[= <- <-]|[]]; (split; [discriminate|intros _ [i| |] X; try discriminate X; eauto]). Qed.
(** Building a consumer has succeeded. Then the broker reading connection [a] has
    read, in this order: at the configured broker a connect and a lookup of the
    topic; and the subscription with the consumer's id, topic and subscription name,
    at the same broker, or, if it named another one and asked for the proxy, after a
    connect and a lookup on the connection through the proxy to the broker named. *)
Theorem C68_built_consumer : forall E h s c id name topic sub permits rs made reply a io reads, reach E h s -> newids h <= 2 ^ 64 ->
  exec (consumer_connect id name topic sub permits Client.fresh) rs = (made, Some (Ok tt)) -> got_replies (s_log s) c made rs ->
  no_collision (s_log s) -> honest (s_log s) reply ->
  writes_succeed E a io h -> (forall n o, In (n, o) (queued a (s_log s)) -> sendable_request o) -> concat reads = wire E a io h ->
  exists mcs, stream_items reads false = map IFrame mcs /\
  match asks_proxy rs with
  | None => a = broker_address (e_cfg E) -> says_all (e_cfg E) [plain_connect; OLookup 0 topic; OSubscribe topic sub id 1 Shared] mcs
  | Some t =>
      (a = broker_address (e_cfg E) -> says_all (e_cfg E) [plain_connect; OLookup 0 topic] mcs) /\
      (a = Proxy (base_url (broker_address (e_cfg E))) t -> says_all (e_cfg E) [proxy_connect t; OLookup 1 topic; OSubscribe topic sub id 2 Shared] mcs)
  end.
Proof.
  intros E h s c id name topic sub permits rs made reply a io reads H Hn X G Nc Ho Ws Q C. rewrite C20_consumer_handshake in X.
  destruct (asks_proxy rs) as [t|].
  - destruct (handshake_read E h s c (proxied_steps topic t ++ subscribe_steps id topic sub permits 2) rs made reply a io reads H Hn) as (mcs & M1 & M2); auto.
    { intros o v Y. apply in_app_iff in Y as [Y|Y]; [eapply proxied_fine; eauto|eapply subscribe_fine; eauto]. }
    exists mcs. split; [exact M1|]. unfold told in M2. split; intros ->; unfold broker_address in *; cbn in M2; rewrite ?bytes_eqb_refl in M2; cbn in M2; exact M2.
  - destruct (handshake_read E h s c (direct_steps topic ++ subscribe_steps id topic sub permits 1) rs made reply a io reads H Hn) as (mcs & M1 & M2); auto.
    { intros o v Y. apply in_app_iff in Y as [Y|Y]; [eapply direct_fine; eauto|eapply subscribe_fine; eauto]. }
    exists mcs. split; [exact M1|]. intros ->. unfold told, broker_address in M2. cbn in M2. rewrite ?bytes_eqb_refl in M2. cbn in M2. exact M2.
Qed.
(** Likewise for a producer, ending with its registration under its id and name. *)
Theorem C68_built_producer : forall E h s c id name topic rs made reply a io reads, reach E h s -> newids h <= 2 ^ 64 ->
  exec (producer_connect id name topic Client.fresh) rs = (made, Some (Ok tt)) -> got_replies (s_log s) c made rs ->
  no_collision (s_log s) -> honest (s_log s) reply ->
  writes_succeed E a io h -> (forall n o, In (n, o) (queued a (s_log s)) -> sendable_request o) -> concat reads = wire E a io h ->
  exists mcs, stream_items reads false = map IFrame mcs /\
  match asks_proxy rs with
  | None => a = broker_address (e_cfg E) -> says_all (e_cfg E) [plain_connect; OLookup 0 topic; OProducer topic id 1 (Some name)] mcs
  | Some t =>
      (a = broker_address (e_cfg E) -> says_all (e_cfg E) [plain_connect; OLookup 0 topic] mcs) /\
      (a = Proxy (base_url (broker_address (e_cfg E))) t -> says_all (e_cfg E) [proxy_connect t; OLookup 1 topic; OProducer topic id 2 (Some name)] mcs)
  end.
Proof.
  intros E h s c id name topic rs made reply a io reads H Hn X G Nc Ho Ws Q C. rewrite C20_producer_handshake in X.
  destruct (asks_proxy rs) as [t|].
  - destruct (handshake_read E h s c (proxied_steps topic t ++ producer_steps id name topic 2) rs made reply a io reads H Hn) as (mcs & M1 & M2); auto.
    { intros o v Y. apply in_app_iff in Y as [Y|Y]; [eapply proxied_fine; eauto|eapply producer_fine; eauto]. }
    exists mcs. split; [exact M1|]. unfold told in M2. split; intros ->; unfold broker_address in *; cbn in M2; rewrite ?bytes_eqb_refl in M2; cbn in M2; exact M2.
  - destruct (handshake_read E h s c (direct_steps topic ++ producer_steps id name topic 1) rs made reply a io reads H Hn) as (mcs & M1 & M2); auto.
    { intros o v Y. apply in_app_iff in Y as [Y|Y]; [eapply direct_fine; eauto|eapply producer_fine; eauto]. }
    exists mcs. split; [exact M1|]. intros ->. unfold told, broker_address in M2. cbn in M2. rewrite ?bytes_eqb_refl in M2. cbn in M2. exact M2.
Qed.
Lemma after_plain cfg os : forall home, (forall cr, In (OConnect cr) os -> cn_addr cr = None) -> after cfg home os = home.
Proof.
  induction os as [|o os IH]; intros home F; [reflexivity|]. cbn [after fold_left]. fold (after cfg).
  assert (Z : forall x, fold_left (fun a o => match o with
                        | OConnect c => match cn_addr c with Some (Proxy _ t) => Proxy (base_url (broker_address cfg)) t | _ => a end
                        | _ => a end) os x = x) by (intros x; apply (IH x); intros cr X; apply F; now right).
  rewrite Z. destruct o as [| |cr| | | | | | |]; try reflexivity. rewrite (F cr) by now left. reflexivity.
Qed.
Lemma reg_is E c l id : every (route E) l -> In (OReg c id) l -> v_id (look (svc E) c l) = Some id.
Proof.
  induction l as [|x l IH] using rev_ind; [intros _ []|]. intros Rt H. pose proof (Rt l x [] eq_refl) as Rx. rewrite look_snoc. apply in_app_iff in H as [H|[->|[]]].
  - pose proof (IH (route_prefix E l [x] Rt) H) as J. destruct x; cbn [look_step]; auto.
    + destruct (h =? c)%nat; auto.
    + destruct o; auto. destruct (in_nat _ _); auto.
    + destruct i; auto. destruct (_ && _); auto.
    + destruct i; auto. destruct (h =? c)%nat; auto.
    + destruct (Nat.eqb_spec h c) as [->|]; auto. cbn in Rx. congruence.
  - cbn [look_step]. now rewrite Nat.eqb_refl.
Qed.
Lemma after_last cfg os : forall home, last (goes cfg home os) home = after cfg home os.
Proof.
  induction os as [|o os IH] using rev_ind; intros home; [reflexivity|]. rewrite goes_app, after_snoc.
  destruct o as [| |cr| | | | | | |]; cbn [goes]; try apply last_last. destruct (cn_addr cr) as [[]|] eqn:A; cbn [after fold_left]; rewrite ?A; apply last_last.
Qed.
Lemma skip_nth {A} (k : nat) : forall (l : list A) j, nth_error (skipn k l) j = nth_error l (k + j).
Proof. induction k as [|k IH]; intros l j; [reflexivity|]. destruct l as [|x l]; [now destruct j|]. cbn. apply IH. Qed.
(** From then on it stays there: once its last connect that names a broker has been
    forwarded, the client receives exactly what C38 and C59 say of the connection its
    last request goes to. *)
Theorem C68_stays : forall E h s c id l1 l2, reach E h s -> newids h <= 2 ^ 64 -> s_log s = l1 ++ l2 -> In (OReg c id) l1 ->
  (forall n cr, In (OIssue c n (OConnect cr)) (s_log s) -> cn_addr cr = None \/ In n (forwarded l1)) ->
  stays (broker_address (e_cfg E)) c (last (goes (e_cfg E) (broker_address (e_cfg E)) (requests c (s_log s))) (broker_address (e_cfg E))) id l1 (s_log s).
Proof.
  intros E h s c id l1 l2 H Hn El Hr F l' I1 I2. pose proof (reach_routes E h s H Hn) as Rt.
  assert (Rl : In (OReg c id) l') by (destruct I1 as [r ->]; apply in_app_iff; auto).
  assert (Id : v_id (look (svc E) c l') = Some id).
  { apply reg_is; auto. destruct I2 as [r X]. rewrite X in Rt. eapply route_prefix; eauto. }
  split; [|exact Id]. destruct (routed E h s c H Hn l' I2) as (_ & B & _). fold (svc E). rewrite B by congruence. rewrite after_last. f_equal.
  set (mine := fun n => in_nat n (issued c (s_log s))). set (k := length (filter mine (forwarded l'))).
  rewrite <- (firstn_skipn k (requests c (s_log s))) at 2. unfold after at 2. rewrite fold_left_app. fold (after (e_cfg E) (svc E) (firstn k (requests c (s_log s)))).
  symmetry. apply after_plain. intros cr X. apply In_nth_error in X as [j X]. rewrite skip_nth in X.
  pose proof (issue_nth c (s_log s) (k + j)) as Y. rewrite X in Y. destruct (nth_error (issued c (s_log s)) (k + j)) as [n|] eqn:Nj; [|contradiction].
  destruct (F n cr Y) as [Z|Z]; [exact Z|exfalso].
  assert (In n (filter mine (forwarded l'))).
  { apply filter_In. split; [destruct I1 as [r ->]; rewrite forwarded_app; apply in_app_iff; auto|]. apply is_in_spec. eapply nth_error_In; eauto. }
  apply In_nth_error in H0 as [i Hi]. pose proof (fm_initial E h s c H l' I2) as Fi. pose proof (initial_nth _ _ _ _ Fi Hi) as Hi'.
  assert (i = (k + j)%nat).
  { apply (proj1 (NoDup_nth_error (issued c (s_log s))) (issued_nodup E h s c H)); [apply nth_error_Some; congruence|congruence]. }
  assert (i < k)%nat by (unfold k; apply nth_error_Some; congruence). lia.
Qed.
Print Assumptions C68_built_consumer.
Print Assumptions C68_built_producer.
Print Assumptions C68_stays.

(** A consumer built behind a proxy: the broker named is [u], the connection through
    the configured broker to it is [xP]. *)
Definition xP : baddr := Proxy (base_url xA) (str "u").
Definition x_build : list event :=
  [EvStart true; EvNewId; EvRegister 0 (str "t"); EvReg; EvConfirm 0%nat] ++ x_connect 0%nat ++
  [EvIssue 0%nat (OLookup 0 (str "t")); EvClient 0%nat; EvWrite xA 0 true; EvNet xA (f_lookup 0 (str "u") 1); EvConn xA;
   EvIssue 0%nat (proxy_connect (str "u")); EvClient 0%nat; EvDial true; EvWrite xP 0 true; EvNet xP f_connected; EvAnswered;
   EvIssue 0%nat (OLookup 1 (str "t")); EvClient 0%nat; EvWrite xP 0 true; EvNet xP (f_lookup 1 (str "u") 0); EvConn xP;
   EvIssue 0%nat (OSubscribe (str "t") (str "s") 0 2 Shared); EvClient 0%nat; EvWrite xP 0 true; EvNet xP (f_success 2); EvConn xP;
   EvIssue 0%nat (OFlow 0 500)].
Definition x_lr (rid : N) (proxy : bool) : inbound := InLookup (mk_lookup rid (str "u") [] LConnect false proxy).
Definition x_rs : list reply := [Resolved InConnected; Resolved (x_lr 0 true); Resolved InConnected; Resolved (x_lr 1 false); Resolved (InSuccess 2); Resolved InPong].

Definition x_log : list obs := Eval vm_compute in log_of x_build.
Lemma x_log_eq : log_of x_build = x_log. Proof. vm_compute. reflexivity. Qed.
Definition x_made : list outbound := Eval vm_compute in fst (exec (consumer_connect 0 (str "n") (str "t") (str "s") 250 Client.fresh) x_rs).
Lemma x_made_eq : exec (consumer_connect 0 (str "n") (str "t") (str "s") 250 Client.fresh) x_rs = (x_made, Some (Ok tt)).
Proof. vm_compute. reflexivity. Qed.
Definition x_self (ser : nat) : nat := ser.
Lemma x_no_collision : no_collision x_log.
Proof.
  unfold x_log. intros l1 n l2 m k o El [h1 Hr] Hk (o' & [h2 Q1] & Q2 & Q3 & Q4 & Q5). splits El.
  all: cbn in Hr, Q1; vm_compute in Q4, Q5.
  all: repeat match goal with H : _ \/ _ |- _ => destruct H as [H|H]; try discriminate H | H : False |- _ => destruct H end; try lia.
  all: repeat match goal with H : OIssue _ _ _ = OIssue _ _ _ |- _ => injection H; clear H; intros; subst end; try lia; cbn in Hk, Q2; try congruence; try tauto.
Qed.
Lemma x_honest : honest x_log x_self.
Proof. unfold x_log. honest_tac. Qed.
Lemma x_replies : got_replies x_log 0%nat x_made x_rs.
Proof.
  split; [exists []; vm_compute; reflexivity|]. intros k n o r I M A R.
  do 6 (destruct k as [|k]; [vm_compute in I, R; injection I as <-; injection R as <-; try (eexists; unfold x_log; cbn [In]; tauto)|]).
  2: { destruct k; discriminate M. }
  vm_compute in M. injection M as <-. discriminate A.
Qed.
Lemma x_writes a : writes_succeed xE a steady x_build.
Proof.
  split; [|intros now ok X; unfold x_build, x_connect in X; cbn [app In] in X; walk X; injection X as _ <- _; reflexivity].
  destruct (baddr_dec a xA) as [->|N1]; [apply all_ok_check; vm_compute; reflexivity|].
  destruct (baddr_dec a xP) as [->|N2]; [apply all_ok_check; vm_compute; reflexivity|].
  intros x X. exfalso. rewrite no_offers in X; [destruct X|]. clear X. intros now ok Y. unfold x_build, x_connect in Y. cbn [app In] in Y. walk Y; injection Y; intros _ _ Y'; first [apply N1; symmetry; exact Y'|apply N2; symmetry; exact Y'].
Qed.
Ltac x_fit := split; [cbn [req_ok]; repeat match goal with |- _ /\ _ => split end; vm_compute; auto|split; [vm_compute; reflexivity|discriminate]].
Lemma x_sendable a m o : In (m, o) (queued a x_log) -> sendable_request o.
Proof.
  intros X. unfold queued in X. apply in_flat_map in X as (x & Hx & Hy).
  assert (S : Forall (fun x => match x with OForward _ _ o => sendable_request o | _ => True end) x_log).
  { unfold x_log. repeat (apply Forall_cons; [solve [exact I|x_fit]|]). apply Forall_nil. }
  rewrite Forall_forall in S. specialize (S x Hx).
  destruct x as [| | | | |n b o1| | | | | | | | | | | | |]; try contradiction.
  - destruct (baddr_eqb b a); [|contradiction]. destruct Hy as [[= _ <-]|[]]. exact S.
  - exfalso. unfold x_log in Hx. cbn [In] in Hx. walk Hx.
Qed.
Lemma log_reach h : log_of h <> [] -> exists s, reach xE h s /\ s_log s = log_of h.
Proof. unfold reach, log_of. destruct (run xE sys_init h) as [s|]; [now exists s|contradiction]. Qed.
(** All hypotheses of C68_built_consumer hold of this run, at both connections; six
    requests were made, over two connections. *)
Example C68_meets : exists s, reach xE x_build s /\ newids x_build <= 2 ^ 64 /\
  exec (consumer_connect 0 (str "n") (str "t") (str "s") 250 Client.fresh) x_rs = (x_made, Some (Ok tt)) /\ got_replies (s_log s) 0%nat x_made x_rs /\
  no_collision (s_log s) /\ honest (s_log s) x_self /\ (forall a, writes_succeed xE a steady x_build) /\
  (forall a n o, In (n, o) (queued a (s_log s)) -> sendable_request o) /\ asks_proxy x_rs = Some (str "u") /\ length x_made = 6%nat /\
  goes xcfg (broker_address xcfg) (requests 0%nat (s_log s)) = [xA; xA; xP; xP; xP; xP].
Proof.
  assert (exists s, reach xE x_build s /\ s_log s = x_log) as (s & R & L).
  { rewrite <- x_log_eq. apply log_reach. rewrite x_log_eq. discriminate. }
  exists s. split; [exact R|]. split; [vm_compute; discriminate|]. split; [exact x_made_eq|]. rewrite L. split; [exact x_replies|]. split; [exact x_no_collision|].
  split; [exact x_honest|]. split; [exact x_writes|]. split; [exact x_sendable|]. split; [reflexivity|]. split; reflexivity.
Qed.
