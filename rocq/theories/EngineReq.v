(** Requests and events: each request is in exactly one place and completes at
    most once; each event is handled at most once. *)
From Verif Require Import Bytes Errors Wire Proto Codec Address Message Client Engine SpecEngine EngineFacts EngineInv.
Open Scope N_scope.

(** * Logs *)
Lemma settled_app a b : settled (a ++ b) = settled a ++ settled b.
Proof. apply flat_map_app. Qed.
Lemma takes_app a b : takes (a ++ b) = takes a ++ takes b.
Proof. apply flat_map_app. Qed.
Lemma handled_app a b : handled (a ++ b) = handled a ++ handled b.
Proof. apply flat_map_app. Qed.
Lemma arrived_app a b : arrived (a ++ b) = arrived a ++ arrived b.
Proof. apply flat_map_app. Qed.
Lemma settled_cancel ns : settled (cancel_all ns) = ns.
Proof. induction ns; cbn; [auto|]. f_equal. auto. Qed.
Lemma takes_cancel ns : takes (cancel_all ns) = [].
Proof. induction ns; cbn; auto. Qed.
Lemma takes_in l n : In n (takes l) <-> In (OTake n) l.
Proof.
  unfold takes. rewrite in_flat_map. split.
  - intros (x & Hx & Hn). destruct x; cbn in Hn; try tauto. destruct Hn as [<-|[]]. exact Hx.
  - intros H. exists (OTake n). cbn. auto.
Qed.

(** A statement about every entry of a log, with what precedes and follows it. *)
Definition every (Q : list obs -> obs -> list obs -> Prop) (l : list obs) : Prop :=
  forall l1 x l2, l = l1 ++ x :: l2 -> Q l1 x l2.
Fixpoint chunk (Q : list obs -> obs -> list obs -> Prop) (l c : list obs) : Prop :=
  match c with [] => True | x :: r => Q l x r /\ chunk Q (l ++ [x]) r end.
Definition forward_closed (Q : list obs -> obs -> list obs -> Prop) := forall l1 x l2 l3, Q l1 x l2 -> Q l1 x (l2 ++ l3).
Lemma chunk_every Q l c : chunk Q l c <-> (forall c1 x c2, c = c1 ++ x :: c2 -> Q (l ++ c1) x c2).
Proof.
  revert l. induction c as [|y c IH]; intros l; cbn.
  - split; auto. intros _ c1 x c2 E. destruct c1; discriminate.
  - rewrite IH. split.
    + intros [H1 H2] c1 x c2 E. destruct c1 as [|z c1]; injection E as <- E.
      * subst. now rewrite app_nil_r.
      * specialize (H2 c1 x c2 E). now rewrite <- app_assoc in H2.
    + intros H. split.
      * specialize (H [] y c eq_refl). now rewrite app_nil_r in H.
      * intros c1 x c2 ->. rewrite <- app_assoc. now apply (H (y :: c1)).
Qed.
Lemma every_app Q l c : forward_closed Q -> every Q l -> chunk Q l c -> every Q (l ++ c).
Proof.
  intros Hm He Hc. rewrite chunk_every in Hc. intros l1 y l2 E.
  apply app_eq_app in E as [m [[-> E2]|[-> E2]]].
  - destruct m as [|z m]; cbn in E2.
    + rewrite app_nil_r in *. specialize (Hc [] y l2 (eq_sym E2)). now rewrite app_nil_r in Hc.
    + injection E2 as <- ->. apply Hm. apply He. reflexivity.
  - now apply Hc.
Qed.
Lemma chunk_app Q l a b : chunk Q l (a ++ b) <-> chunk (fun l1 x l2 => Q l1 x (l2 ++ b)) l a /\ chunk Q (l ++ a) b.
Proof.
  revert l. induction a as [|x a IH]; intros l; cbn.
  - rewrite app_nil_r. tauto.
  - rewrite IH. rewrite <- app_assoc. cbn. tauto.
Qed.
Lemma chunk_all (Q : list obs -> obs -> list obs -> Prop) l c : (forall l1 x l2, In x c -> Q l1 x l2) -> chunk Q l c.
Proof. revert l. induction c as [|x c IH]; intros l H; cbn; auto. split; [apply H; now left|]. apply IH. intros; apply H. now right. Qed.

Lemma NoDup_app_intro {A} (a b : list A) : NoDup a -> NoDup b -> (forall x, In x a -> In x b -> False) -> NoDup (a ++ b).
Proof.
  induction a as [|x a IH]; cbn; intros Ha Hb H; auto. inversion Ha; subst. constructor.
  - rewrite in_app_iff. intros [X|X]; [auto|]. apply (H x); auto.
  - apply IH; auto. intros y Y. apply H. auto.
Qed.

(** * Requests *)
Definition neutral (x : obs) : bool := match x with OIssue _ _ _ | OTake _ | OAnswer _ _ _ | OCancel _ => false | _ => true end.
Lemma neutral_settled c : forallb neutral c = true -> settled c = [].
Proof. induction c as [|x c IH]; cbn; auto. destruct x; cbn; auto; discriminate. Qed.
Lemma neutral_takes c : forallb neutral c = true -> takes c = [].
Proof. induction c as [|x c IH]; cbn; auto. destruct x; cbn; auto; discriminate. Qed.
Lemma neutral_issue c h n o : forallb neutral c = true -> ~ In (OIssue h n o) c.
Proof. intros H Hin. rewrite forallb_forall in H. apply H in Hin. discriminate. Qed.

Record rinv (s : sys) : Prop := mk_rinv {
  r_lt : forall h n o, In (OIssue h n o) (s_log s) -> (n < s_nreq s)%nat;
  r_uniq : forall h n o h' o', In (OIssue h n o) (s_log s) -> In (OIssue h' n o') (s_log s) -> h = h' /\ o = o';
  r_up : forall h n o, In (n, o) (ch_up (s_ch s h)) ->
      In (OIssue h n o) (s_log s) /\ ~ In n (takes (s_log s)) /\
      (ch_client (s_ch s h) = true \/ ch_engine (s_ch s h) = true -> ~ In n (settled (s_log s)));
  r_upnd : forall h, NoDup (map fst (ch_up (s_ch s h)));
  r_res : forall k n, In (k, n) (s_res s) -> waiting_on (s_log s) n k;
  r_keys : NoDup (map fst (s_res s));
  r_toks : NoDup (map snd (s_res s));
  r_tk : forall n, In n (takes (s_log s)) -> exists o, requested (s_log s) n o;
  r_tknd : NoDup (takes (s_log s));
  r_stnd : NoDup (settled (s_log s));
  r_st : forall n, In n (settled (s_log s)) -> exists o, requested (s_log s) n o /\ asks o = true;
  r_done : forall n o, In n (takes (s_log s)) -> requested (s_log s) n o -> asks o = true ->
      In n (settled (s_log s)) \/ In n (map snd (s_res s)) }.

Lemma rinv_neutral s s' c :
  rinv s -> s_log s' = s_log s ++ c -> forallb neutral c = true -> s_nreq s' = s_nreq s -> s_res s' = s_res s ->
  (forall x, ch_up (s_ch s' x) = ch_up (s_ch s x)) ->
  (forall x, (ch_client (s_ch s' x) = true \/ ch_engine (s_ch s' x) = true) -> ch_up (s_ch s x) <> [] ->
             (ch_client (s_ch s x) = true \/ ch_engine (s_ch s x) = true)) -> rinv s'.
Proof.
  intros [R1 R2 R3 R4 R5 R6 R7 R8 R9 R10 R11 R12] El Hc En Er Eu Ef.
  assert (Hi : forall h n o, In (OIssue h n o) (s_log s') <-> In (OIssue h n o) (s_log s)).
  { intros. rewrite El, in_app_iff. pose proof (neutral_issue c h n o Hc). tauto. }
  assert (Ht : takes (s_log s') = takes (s_log s)) by (rewrite El, takes_app, (neutral_takes c Hc); apply app_nil_r).
  assert (Hs : settled (s_log s') = settled (s_log s)) by (rewrite El, settled_app, (neutral_settled c Hc); apply app_nil_r).
  assert (Hr : forall n o, requested (s_log s') n o <-> requested (s_log s) n o).
  { intros. unfold requested. split; intros [h H]; exists h; now apply Hi. }
  constructor; rewrite ?Ht, ?Hs, ?Er, ?En; auto.
  - intros h n o H. apply Hi in H. eauto.
  - intros h n o h' o' Ha Hb. apply Hi in Ha, Hb. eauto.
  - intros h n o H. rewrite Eu in H. destruct (R3 h n o H) as (A & B & C).
    rewrite Hi. split; auto. split; auto. intros F. apply C. apply Ef; auto. intros X. rewrite X in H. destruct H.
  - intros h. rewrite Eu. auto.
  - intros k n H. destruct (R5 k n H) as (o & A & B). exists o. now rewrite Hr, Ht, Hs.
  - intros n H. destruct (R8 n H) as [o A]. exists o. now apply Hr.
  - intros n H. destruct (R11 n H) as (o & A & B). exists o. now rewrite Hr.
  - intros n o H A B. apply Hr in A. eauto.
Qed.

(** One end of a channel pair is dropped; if the other is gone too, the requests
    in its queue end. *)
Lemma queued_in c n : In n (queued_requests c) <-> exists o, In (n, o) (ch_up c) /\ asks o = true.
Proof.
  unfold queued_requests. rewrite in_map_iff. split.
  - intros ([m o] & E & H). cbn in E. subst m. apply filter_In in H. exists o. exact H.
  - intros (o & H & A). exists (n, o). split; auto. apply filter_In. auto.
Qed.
Lemma queued_nodup c : NoDup (map fst (ch_up c)) -> NoDup (queued_requests c).
Proof.
  unfold queued_requests. induction (ch_up c) as [|[m o] r IH]; cbn; intros H; [constructor|].
  inversion H as [|? ? H1 H2]; subst. destruct (asks o); cbn; auto. constructor; auto.
  intros X. apply H1. apply in_map_iff in X as ([m' o'] & E & X). cbn in E. subst m'. apply filter_In in X as [X _].
  apply in_map_iff. exists (m, o'). auto.
Qed.
Lemma rinv_cancels s s' h ns c :
  rinv s -> (ns = [] \/ (ns = queued_requests (s_ch s h) /\ (ch_client (s_ch s h) = true \/ ch_engine (s_ch s h) = true) /\
                         ch_client (s_ch s' h) = false /\ ch_engine (s_ch s' h) = false)) ->
  s_log s' = s_log s ++ c ++ cancel_all ns -> forallb neutral c = true -> s_nreq s' = s_nreq s -> s_res s' = s_res s ->
  (forall x, ch_up (s_ch s' x) = ch_up (s_ch s x)) ->
  (forall x, (ch_client (s_ch s' x) = true \/ ch_engine (s_ch s' x) = true) -> ch_up (s_ch s x) <> [] ->
             (ch_client (s_ch s x) = true \/ ch_engine (s_ch s x) = true)) -> rinv s'.
Proof.
  intros R [->|(-> & Ho & Hc1 & Hc2)] El Hc En Er Eu Ef.
  { apply (rinv_neutral s s' c); auto. rewrite El. cbn. now rewrite app_nil_r. }
  destruct R as [R1 R2 R3 R4 R5 R6 R7 R8 R9 R10 R11 R12]. set (ns := queued_requests (s_ch s h)) in *.
  assert (Hi : forall h n o, In (OIssue h n o) (s_log s') <-> In (OIssue h n o) (s_log s)).
  { intros. rewrite El, !in_app_iff. pose proof (neutral_issue c h0 n o Hc).
    split; [|tauto]. intros [X|[X|X]]; [auto|tauto|]. apply cancel_all_cancel in X as [? X]. discriminate. }
  assert (Ht : takes (s_log s') = takes (s_log s)) by (rewrite El, !takes_app, (neutral_takes c Hc), takes_cancel; apply app_nil_r).
  assert (Hs : settled (s_log s') = settled (s_log s) ++ ns) by (rewrite El, !settled_app, (neutral_settled c Hc), settled_cancel; reflexivity).
  assert (Hr : forall n o, requested (s_log s') n o <-> requested (s_log s) n o).
  { intros. unfold requested. split; intros [x H]; exists x; now apply Hi. }
  assert (Hns : forall n, In n ns -> (exists o, In (OIssue h n o) (s_log s) /\ asks o = true) /\ ~ In n (takes (s_log s)) /\ ~ In n (settled (s_log s))).
  { intros n Hn. apply queued_in in Hn as (o & Hn & Ha). destruct (R3 h n o Hn) as (A & B & C). split; eauto. }
  constructor; rewrite ?Ht, ?Hs, ?Er, ?En; auto.
  - intros x n o H. apply Hi in H. eauto.
  - intros x n o x' o' Ha Hb. apply Hi in Ha, Hb. eauto.
  - intros x n o H. rewrite Eu in H. destruct (R3 x n o H) as (A & B & C).
    rewrite Hi. split; auto. split; auto. intros F. rewrite in_app_iff. intros [D|D].
    + apply C; auto. apply Ef; auto. intros X. rewrite X in H. destruct H.
    + destruct (Hns n D) as ((o' & Ho' & _) & _). destruct (R2 _ _ _ _ _ A Ho') as [-> _].
      rewrite Hc1, Hc2 in F. destruct F; discriminate.
  - intros x. rewrite Eu. auto.
  - intros k n H. destruct (R5 k n H) as (o & A & B & C & D & F). exists o. rewrite Hr, Ht, Hs, in_app_iff.
    repeat (split; auto). intros [G|G]; auto. destruct (Hns n G) as (_ & G' & _). auto.
  - intros n H. destruct (R8 n H) as [o A]. exists o. now apply Hr.
  - apply NoDup_app_intro; auto; [now apply queued_nodup, R4|]. intros n A B. destruct (Hns n B) as (_ & _ & G). auto.
  - intros n H. apply in_app_iff in H as [H|H].
    + destruct (R11 n H) as (o & A & B). exists o. now rewrite Hr.
    + destruct (Hns n H) as ((o & A & B) & _). exists o. rewrite Hr. split; auto. now exists h.
  - intros n o H A B. apply Hr in A. rewrite in_app_iff. destruct (R12 n o H A B); auto.
Qed.

Lemma rinv_drop_ends hs s :
  rinv s -> NoDup hs -> (forall h, In h hs -> ch_engine (s_ch s h) = true) -> rinv (drop_engine_ends hs s).
Proof.
  revert s. induction hs as [|h r IH]; intros s R Hnd Hen; cbn [drop_engine_ends]; auto.
  inversion Hnd as [|? ? Hn1 Hn2]; subst. apply IH; auto.
  - destruct (ch_client (s_ch s h)) eqn:C.
    + apply (rinv_neutral s _ []); auto; pj.
      * now rewrite app_nil_r.
      * intros x. unfold set_ch. destruct (x =? h)%nat eqn:X; auto. apply Nat.eqb_eq in X; now subst.
      * intros x. unfold set_ch. destruct (x =? h)%nat eqn:X; auto. apply Nat.eqb_eq in X; subst. cbn. auto.
    + apply (rinv_cancels s _ h (queued_requests (s_ch s h)) []); auto; pj.
      * right. split; auto. split; [right; apply Hen; now left|]. rewrite set_ch_same. cbn. auto.
      * intros x. unfold set_ch. destruct (x =? h)%nat eqn:X; auto. apply Nat.eqb_eq in X; now subst.
      * intros x. unfold set_ch. destruct (x =? h)%nat eqn:X; auto. apply Nat.eqb_eq in X; subst. cbn. rewrite C. tauto.
  - intros x Hx. assert (Y : x <> h) by congruence. specialize (Hen x (or_intror Hx)).
    destruct (ch_client (s_ch s h)); pj; rewrite set_ch_other by auto; auto.
Qed.
(** The resolver is dropped. *)
Lemma rinv_drop_res s :
  rinv s -> rinv (with_res (say (with_phase s PStop) (OStop :: cancel_all (map snd (s_res s)))) []).
Proof.
  intros [R1 R2 R3 R4 R5 R6 R7 R8 R9 R10 R11 R12].
  set (s' := with_res _ _).
  assert (El : s_log s' = s_log s ++ OStop :: cancel_all (map snd (s_res s))) by reflexivity.
  assert (Er : s_res s' = []) by reflexivity. assert (Ec : s_ch s' = s_ch s) by reflexivity.
  assert (En : s_nreq s' = s_nreq s) by reflexivity. clearbody s'.
  assert (Hi : forall h n o, In (OIssue h n o) (s_log s') <-> In (OIssue h n o) (s_log s)).
  { intros. rewrite El, in_app_iff. cbn. split; [|tauto]. intros [X|[X|X]]; [auto|discriminate|].
    apply cancel_all_cancel in X as [? X]. discriminate. }
  assert (Ht : takes (s_log s') = takes (s_log s)).
  { rewrite El, takes_app. change (OStop :: ?x) with ([OStop] ++ x). rewrite takes_app, takes_cancel. apply app_nil_r. }
  assert (Hs : settled (s_log s') = settled (s_log s) ++ map snd (s_res s)).
  { rewrite El, settled_app. change (OStop :: ?x) with ([OStop] ++ x). rewrite settled_app, settled_cancel. reflexivity. }
  assert (Hr : forall n o, requested (s_log s') n o <-> requested (s_log s) n o).
  { intros. unfold requested. split; intros [x H]; exists x; now apply Hi. }
  assert (Hns : forall n, In n (map snd (s_res s)) -> exists k, waiting_on (s_log s) n k).
  { intros n Hn. apply in_map_iff in Hn as ([k m] & E & Hn). cbn in E. subst. eauto. }
  constructor; rewrite ?Ht, ?Hs, ?Er, ?Ec, ?En; cbn [map]; auto; try (constructor; fail).
  - intros x n o H. apply Hi in H. eauto.
  - intros x n o x' o' Ha Hb. apply Hi in Ha, Hb. eauto.
  - intros x n o H. destruct (R3 x n o H) as (A & B & C).
    rewrite Hi. split; auto. split; auto. intros F. rewrite in_app_iff. intros [D|D]; [now apply C|].
    destruct (Hns n D) as (k & o' & _ & _ & _ & G & _). auto.
  - intros k n [].
  - intros n H. destruct (R8 n H) as [o A]. exists o. now apply Hr.
  - apply NoDup_app_intro; auto. intros n A B. destruct (Hns n B) as (k & o' & _ & _ & _ & _ & G). auto.
  - intros n H. apply in_app_iff in H as [H|H].
    + destruct (R11 n H) as (o & A & B). exists o. now rewrite Hr.
    + destruct (Hns n H) as (k & o' & A & B & _). exists o'. now rewrite Hr.
  - intros n o H A B. apply Hr in A. rewrite in_app_iff. left. destruct (R12 n o H A B); auto.
Qed.
Lemma ended_nodup s : hinv s -> NoDup (ended s).
Proof. intros [H _]. unfold ended. destruct (s_mgr s); [rewrite app_nil_r; now apply NoDup_app_l in H|exact H]. Qed.
Lemma ended_open s h : hinv s -> s_phase s <> PStop -> In h (ended s) -> ch_engine (s_ch s h) = true.
Proof.
  intros H Hp Hi. apply (h_engine s H). unfold ended in Hi. apply in_app_iff in Hi as [Hi|Hi]; [auto|].
  destruct (s_mgr s); [destruct Hi|auto].
Qed.
Lemma rinv_stop s : hinv s -> rinv s -> s_phase s <> PStop -> rinv (stop s).
Proof.
  intros Hh R Hp. rewrite stop_ends. apply rinv_drop_ends.
  - now apply rinv_drop_res.
  - now apply ended_nodup.
  - pj. intros h. now apply ended_open.
Qed.

(** The resolver. *)
Lemma r_del_in k r p : In p (r_del k r) <-> In p r /\ fst p <> k.
Proof.
  unfold r_del. rewrite filter_In. destruct (bytes_eqb k (fst p)) eqn:X; cbn.
  - apply bytes_eqb_spec in X. intuition congruence.
  - assert (k <> fst p) by (intros Y; apply bytes_eqb_spec in Y; congruence). intuition congruence.
Qed.
Lemma r_find_in k r n : r_find k r = Some n -> In (k, n) r.
Proof.
  induction r as [|[k' m] r IH]; cbn; [discriminate|]. destruct (bytes_eqb k k') eqn:X.
  - apply bytes_eqb_spec in X. intros H. left. congruence.
  - auto.
Qed.
Lemma r_find_nodup k r n : NoDup (map fst r) -> In (k, n) r -> r_find k r = Some n.
Proof.
  induction r as [|[k' m] r IH]; cbn; [tauto|]. intros H. inversion H as [|? ? H1 H2]; subst. intros [E|Hi].
  - injection E as -> ->. now rewrite (proj2 (bytes_eqb_spec k k) eq_refl).
  - destruct (bytes_eqb k k') eqn:X; auto. apply bytes_eqb_spec in X. subst k'. exfalso. apply H1.
    apply in_map_iff. exists (k, n). auto.
Qed.
Lemma r_find_none k r : r_find k r = None -> forall n, ~ In (k, n) r.
Proof.
  induction r as [|[k' m] r IH]; cbn; intros H n; [tauto|]. destruct (bytes_eqb k k') eqn:X; [discriminate|].
  intros [E|Hi]; [|now apply (IH H n)]. injection E as -> ->. rewrite (proj2 (bytes_eqb_spec k k) eq_refl) in X. discriminate.
Qed.
Lemma r_del_fst k r : NoDup (map fst r) -> NoDup (map fst (r_del k r)) /\ ~ In k (map fst (r_del k r)).
Proof.
  intros H. split.
  - unfold r_del. induction r as [|p r IH]; cbn in *; [constructor|]. inversion H; subst.
    destruct (negb (bytes_eqb k (fst p))); cbn; auto. constructor; auto.
    intros X. apply in_map_iff in X as (q & E & X). apply filter_In in X as [X _]. apply H2. apply in_map_iff. eauto.
  - intros X. apply in_map_iff in X as (q & E & X). apply r_del_in in X as [_ X]. congruence.
Qed.
Lemma r_del_snd k r n : NoDup (map snd r) -> r_find k r = Some n -> NoDup (map snd (r_del k r)) /\ ~ In n (map snd (r_del k r)).
Proof.
  intros H F. assert (H' : NoDup (map snd (r_del k r))).
  { clear F. unfold r_del. induction r as [|p r IH]; cbn in *; [constructor|]. inversion H; subst.
    destruct (negb (bytes_eqb k (fst p))); cbn; auto. constructor; auto.
    intros X. apply in_map_iff in X as (q & E & X). apply filter_In in X as [X _]. apply H2. apply in_map_iff. eauto. }
  split; auto. intros X. apply in_map_iff in X as ([k' m] & E & X). cbn in E. subst m.
  apply r_del_in in X as [X X']. cbn in X'. apply r_find_in in F.
  assert ((k', n) = (k, n)); [|congruence].
  clear -H F X. induction r as [|[k1 n1] r IH]; [destruct F|]. cbn in H. inversion H; subst.
  destruct F as [E1|F], X as [E2|X]; try congruence; auto.
  - injection E1 as -> ->. exfalso. apply H2. apply in_map_iff. exists (k', n). auto.
  - injection E2 as -> ->. exfalso. apply H2. apply in_map_iff. exists (k, n). auto.
Qed.

(** An answer is given. *)
Lemma rinv_answer s s' c n r k ser i :
  rinv s -> r_find k (s_res s) = Some n -> r = r_del k (s_res s) ->
  s_log s' = s_log s ++ c ++ [OAnswer n ser i] -> forallb neutral c = true -> s_nreq s' = s_nreq s -> s_res s' = r -> s_ch s' = s_ch s -> rinv s'.
Proof.
  intros [R1 R2 R3 R4 R5 R6 R7 R8 R9 R10 R11 R12] Hf -> El Hc En Er Eu.
  assert (Hi : forall h n o, In (OIssue h n o) (s_log s') <-> In (OIssue h n o) (s_log s)).
  { intros h m o. rewrite El, !in_app_iff. pose proof (neutral_issue c h m o Hc). cbn.
    split; [|tauto]. intros [X|[X|[X|[]]]]; [auto|tauto|discriminate]. }
  assert (Ht : takes (s_log s') = takes (s_log s)) by (rewrite El, !takes_app, (neutral_takes c Hc); apply app_nil_r).
  assert (Hs : settled (s_log s') = settled (s_log s) ++ [n]) by (rewrite El, !settled_app, (neutral_settled c Hc); reflexivity).
  assert (Hr : forall n o, requested (s_log s') n o <-> requested (s_log s) n o).
  { intros. unfold requested. split; intros [x H]; exists x; now apply Hi. }
  destruct (R5 k n (r_find_in _ _ _ Hf)) as (o & A1 & A2 & A3 & A4 & A5).
  destruct (r_del_snd k (s_res s) n R7 Hf) as [D1 D2]. destruct (r_del_fst k (s_res s) R6) as [D3 D4].
  constructor; rewrite ?Ht, ?Hs, ?Er, ?En, ?Eu; auto.
  - intros x m p H. apply Hi in H. eauto.
  - intros x m p x' p' Ha Hb. apply Hi in Ha, Hb. eauto.
  - intros x m p H. destruct (R3 x m p H) as (A & B & C). rewrite Hi. split; auto. split; auto.
    intros F. rewrite in_app_iff. intros [D|[<-|[]]]; [now apply C|contradiction].
  - intros k' m H. assert (m <> n) by (intros ->; apply D2; apply in_map_iff; exists (k', n); auto).
    apply r_del_in in H as [H _]. destruct (R5 k' m H) as (p & B1 & B2 & B3 & B4 & B5). exists p.
    rewrite Hr, Ht, Hs, in_app_iff. repeat (split; auto). intros [G|[G|[]]]; auto.
  - intros m H. destruct (R8 m H) as [p A]. exists p. now apply Hr.
  - apply NoDup_snoc; auto.
  - intros m H. apply in_app_iff in H as [H|[<-|[]]].
    + destruct (R11 m H) as (p & A & B). exists p. now rewrite Hr.
    + exists o. now rewrite Hr.
  - intros m p H A B. apply Hr in A. rewrite in_app_iff. destruct (R12 m p H A B) as [X|X]; auto.
    destruct (Nat.eq_dec m n) as [->|Hne]; [left; right; now left|].
    right. apply in_map_iff in X as ([k' m'] & E & X). cbn in E. subst m'.
    apply in_map_iff. exists (k', m). split; auto. apply r_del_in. split; auto. cbn. intros ->.
    apply (r_find_nodup _ _ _ R6) in X. congruence.
Qed.

Lemma asks_key o : asks o = true -> exists k, okey o = Some k.
Proof. destruct o; cbn; intros H; try discriminate; eauto. Qed.
(** What the resolver does with a request that is taken. *)
Lemma put_cases o n r res dropped :
  (if asks o then r_put (okey o) n r else (r, [])) = (res, dropped) ->
  (asks o = false /\ res = r /\ dropped = []) \/
  (exists k, asks o = true /\ okey o = Some k /\ res = (k, n) :: r_del k r /\ dropped = match r_find k r with Some m => [m] | None => [] end).
Proof.
  destruct (asks o) eqn:A; intros H.
  - destruct (asks_key o A) as [k Hk]. rewrite Hk in H. cbn in H. injection H as <- <-. right. eauto 6.
  - injection H as <- <-. auto.
Qed.
Lemma takes_one n l : takes (OTake n :: l) = n :: takes l.
Proof. reflexivity. Qed.
Lemma settled_one n l : settled (OTake n :: l) = settled l.
Proof. reflexivity. Qed.

Lemma rinv_taken s h q n o res dropped :
  rinv s -> ch_up (s_ch s h) = (n, o) :: q -> (ch_client (s_ch s h) = true \/ ch_engine (s_ch s h) = true) ->
  (if asks o then r_put (okey o) n (s_res s) else (s_res s, [])) = (res, dropped) ->
  rinv (taken s h q n res dropped).
Proof.
  intros [R1 R2 R3 R4 R5 R6 R7 R8 R9 R10 R11 R12] Hu Ho Hp. apply put_cases in Hp.
  set (s' := taken s h q n res dropped).
  assert (El : s_log s' = s_log s ++ OTake n :: cancel_all dropped) by (unfold s', taken; pj; rewrite <- app_assoc; reflexivity).
  assert (Er : s_res s' = res) by reflexivity. assert (En : s_nreq s' = s_nreq s) by reflexivity.
  assert (Ec : forall x, ch_up (s_ch s' x) = if (x =? h)%nat then q else ch_up (s_ch s x)).
  { intros x. unfold s', taken. pj. unfold set_ch. now destruct (x =? h)%nat. }
  assert (Em : forall x, ch_client (s_ch s' x) = ch_client (s_ch s x) /\ ch_engine (s_ch s' x) = ch_engine (s_ch s x)).
  { intros x. unfold s', taken. pj. unfold set_ch. destruct (x =? h)%nat eqn:X; auto. apply Nat.eqb_eq in X; now subst x. }
  clearbody s'.
  assert (Hi : forall h n o, In (OIssue h n o) (s_log s') <-> In (OIssue h n o) (s_log s)).
  { intros x m p. rewrite El, in_app_iff. cbn. split; [|tauto]. intros [X|[X|X]]; [auto|discriminate|].
    apply cancel_all_cancel in X as [? X]. discriminate. }
  assert (Ht : takes (s_log s') = takes (s_log s) ++ [n]) by (rewrite El, takes_app, takes_one, takes_cancel; reflexivity).
  assert (Hs : settled (s_log s') = settled (s_log s) ++ dropped) by (rewrite El, settled_app, settled_one, settled_cancel; reflexivity).
  assert (Hr : forall n o, requested (s_log s') n o <-> requested (s_log s) n o).
  { intros. unfold requested. split; intros [x H]; exists x; now apply Hi. }
  assert (Hin : In (n, o) (ch_up (s_ch s h))) by (rewrite Hu; now left).
  destruct (R3 h n o Hin) as (I1 & I2 & I3). specialize (I3 Ho).
  assert (Hd : forall m, In m dropped -> exists k, In (k, m) (s_res s) /\ waiting_on (s_log s) m k).
  { intros m Hm. destruct Hp as [(_ & _ & ->)|(k & _ & _ & _ & ->)]; [destruct Hm|].
    destruct (r_find k (s_res s)) as [m'|] eqn:F; [|destruct Hm]. destruct Hm as [<-|[]].
    apply r_find_in in F. eauto. }
  assert (Hdn : forall m, In m dropped -> m <> n).
  { intros m Hm ->. destruct (Hd n Hm) as (k & _ & o' & _ & _ & _ & X & _). contradiction. }
  assert (Hdnd : NoDup dropped).
  { destruct Hp as [(_ & _ & ->)|(k & _ & _ & _ & ->)]; [constructor|]. destruct (r_find k (s_res s)); [constructor; [tauto|constructor]|constructor]. }
  assert (Hold : forall k m, In (k, m) res -> m <> n -> In (k, m) (s_res s) /\ ~ In m dropped).
  { intros k m Hm Hne. destruct Hp as [(_ & -> & ->)|(k' & _ & _ & -> & ->)]; [cbn; tauto|].
    destruct Hm as [E|Hm]; [congruence|]. pose proof Hm as Hm'. apply r_del_in in Hm' as [Hm1 Hm2]. split; auto.
    destruct (r_find k' (s_res s)) as [m'|] eqn:F; [|cbn; tauto]. cbn. intros [<-|[]].
    apply (proj2 (r_del_snd k' _ _ R7 F)). apply in_map_iff. exists (k, m'). auto. }
  constructor; rewrite ?Ht, ?Hs, ?Er, ?En.
  - intros x m p H. apply Hi in H. eauto.
  - intros x m p x' p' Ha Hb. apply Hi in Ha, Hb. eauto.
  - intros x m p H. rewrite Ec in H. destruct (Em x) as [-> ->].
    assert (Hold' : In (m, p) (ch_up (s_ch s x)) /\ m <> n).
    { destruct (x =? h)%nat eqn:X.
      - apply Nat.eqb_eq in X; subst x. rewrite Hu. split; [now right|].
        specialize (R4 h). rewrite Hu in R4. cbn in R4. inversion R4 as [|? ? H1 H2]; subst.
        intros ->. apply H1. apply in_map_iff. exists (n, p). auto.
      - split; auto. intros ->. apply Nat.eqb_neq in X.
        destruct (R3 x n p H) as (A & _). destruct (R2 _ _ _ _ _ A I1). congruence. }
    destruct Hold' as [Ha Hb]. destruct (R3 x m p Ha) as (A & B & C). rewrite Hi. split; auto. split.
    + rewrite in_app_iff. intros [X|[X|[]]]; auto.
    + intros F. rewrite in_app_iff. intros [X|X]; [now apply C|].
      destruct (Hd m X) as (k & _ & o' & _ & _ & _ & Y & _). auto.
  - intros x. rewrite Ec. destruct (x =? h)%nat eqn:X; auto. specialize (R4 h). rewrite Hu in R4. now inversion R4.
  - intros k m H. destruct (Nat.eq_dec m n) as [->|Hne].
    + exists o. rewrite Hr, Ht, Hs, !in_app_iff. destruct Hp as [(Ha & -> & ->)|(k' & Ha & Hk & -> & _)].
      * exfalso. destruct (R5 k n H) as (o' & _ & _ & _ & X & _). contradiction.
      * destruct H as [E|H].
        -- injection E as ->. split; [now exists h|]. split; auto. split; auto. split; [right; now left|].
           intros [X|X]; [auto|]. now apply Hdn in X.
        -- exfalso. apply r_del_in in H as [H _]. destruct (R5 k n H) as (o' & _ & _ & _ & X & _). contradiction.
    + destruct (Hold k m H Hne) as [Ha Hb]. destruct (R5 k m Ha) as (p & B1 & B2 & B3 & B4 & B5). exists p.
      rewrite Hr, Ht, Hs, !in_app_iff. repeat (split; auto). intros [X|X]; auto.
  - destruct Hp as [(_ & -> & _)|(k & _ & _ & -> & _)]; auto. cbn. destruct (r_del_fst k _ R6). now constructor.
  - destruct Hp as [(_ & -> & _)|(k & _ & _ & -> & _)]; auto. cbn. constructor.
    + intros X. apply in_map_iff in X as ([k' m] & E & X). cbn in E. subst m. apply r_del_in in X as [X _].
      destruct (R5 k' n X) as (o' & _ & _ & _ & Y & _). contradiction.
    + clear -R7. unfold r_del. induction (s_res s) as [|p r IH]; cbn in *; [constructor|]. inversion R7; subst.
      destruct (negb (bytes_eqb k (fst p))); cbn; auto. constructor; auto.
      intros X. apply in_map_iff in X as (q & E & X). apply filter_In in X as [X _]. apply H1. apply in_map_iff. eauto.
  - intros m H. apply in_app_iff in H as [H|[<-|[]]].
    + destruct (R8 m H) as [p A]. exists p. now apply Hr.
    + exists o. apply Hr. now exists h.
  - apply NoDup_snoc; auto.
  - apply NoDup_app_intro; auto. intros m A B. destruct (Hd m B) as (k & _ & o' & _ & _ & _ & _ & X). auto.
  - intros m H. apply in_app_iff in H as [H|H].
    + destruct (R11 m H) as (p & A & B). exists p. now rewrite Hr.
    + destruct (Hd m H) as (k & _ & p & A & B & _). exists p. now rewrite Hr.
  - intros m p H A B. apply Hr in A. rewrite in_app_iff. apply in_app_iff in H as [H|[<-|[]]].
    + destruct (R12 m p H A B) as [X|X]; auto.
      destruct Hp as [(_ & -> & ->)|(k & _ & _ & -> & ->)]; auto.
      apply in_map_iff in X as ([k' m'] & E & X). cbn in E. subst m'.
      destruct (bytes_eqb k k') eqn:Y.
      * apply bytes_eqb_spec in Y. subst k'. apply (r_find_nodup _ _ _ R6) in X. rewrite X. left. right. now left.
      * right. cbn. right. apply in_map_iff. exists (k', m). split; auto. apply r_del_in. split; auto. cbn.
        intros ->. rewrite (proj2 (bytes_eqb_spec k k) eq_refl) in Y. discriminate.
    + right. destruct Hp as [(Hn & -> & ->)|(k & _ & _ & -> & ->)]; [|now left].
      destruct A as [x A]. destruct (R2 _ _ _ _ _ A I1) as [_ ->]. congruence.
Qed.

Lemma rinv_issue s h o :
  rinv s -> rinv (say (upd_ch (with_counts s (S (s_nreq s)) (s_narr s)) h (ch_push_up (s_nreq s, o))) [OIssue h (s_nreq s) o]).
Proof.
  intros [R1 R2 R3 R4 R5 R6 R7 R8 R9 R10 R11 R12]. set (s' := say _ _). set (n := s_nreq s) in *.
  assert (El : s_log s' = s_log s ++ [OIssue h n o]) by reflexivity.
  assert (Er : s_res s' = s_res s) by reflexivity. assert (En : s_nreq s' = S n) by reflexivity.
  assert (Ec : forall x, ch_up (s_ch s' x) = if (x =? h)%nat then ch_up (s_ch s h) ++ [(n, o)] else ch_up (s_ch s x)).
  { intros x. unfold s'. pj. unfold set_ch. now destruct (x =? h)%nat. }
  assert (Em : forall x, ch_client (s_ch s' x) = ch_client (s_ch s x) /\ ch_engine (s_ch s' x) = ch_engine (s_ch s x)).
  { intros x. unfold s'. pj. unfold set_ch. destruct (x =? h)%nat eqn:X; auto. apply Nat.eqb_eq in X; now subst x. }
  clearbody s'.
  assert (Hi : forall x m p, In (OIssue x m p) (s_log s') <-> In (OIssue x m p) (s_log s) \/ (x = h /\ m = n /\ p = o)).
  { intros x m p. rewrite El, in_app_iff. cbn. intuition congruence. }
  assert (Ht : takes (s_log s') = takes (s_log s)) by (rewrite El, takes_app; apply app_nil_r).
  assert (Hs : settled (s_log s') = settled (s_log s)) by (rewrite El, settled_app; apply app_nil_r).
  assert (Hr : forall m p, requested (s_log s) m p -> requested (s_log s') m p).
  { intros m p [x H]. exists x. apply Hi. auto. }
  assert (Hf : forall x p, ~ In (OIssue x n p) (s_log s)) by (intros x p H; apply R1 in H; lia).
  assert (Hft : ~ In n (takes (s_log s))) by (intros H; apply R8 in H as [p [x H]]; now apply Hf in H).
  assert (Hfs : ~ In n (settled (s_log s))) by (intros H; apply R11 in H as (p & [x H] & _); now apply Hf in H).
  constructor; rewrite ?Ht, ?Hs, ?Er, ?En; auto.
  - intros x m p H. apply Hi in H as [H|(-> & -> & ->)]; [|lia]. apply R1 in H. lia.
  - intros x m p x' p' Ha Hb. apply Hi in Ha, Hb. destruct Ha as [Ha|(-> & -> & ->)], Hb as [Hb|(-> & E & ->)]; eauto.
    + subst. now apply Hf in Ha.
    + now apply Hf in Hb.
  - intros x m p H. rewrite Ec in H. destruct (Em x) as [-> ->]. rewrite Hi.
    assert (Hc : In (m, p) (ch_up (s_ch s x)) \/ (x = h /\ m = n /\ p = o)).
    { destruct (x =? h)%nat eqn:X; auto. apply Nat.eqb_eq in X; subst x. apply in_app_iff in H as [H|[H|[]]]; auto. injection H as <- <-. auto. }
    destruct Hc as [Hc|(-> & -> & ->)].
    + destruct (R3 x m p Hc) as (A & B & C). auto.
    + auto.
  - intros x. rewrite Ec. destruct (x =? h)%nat; auto. rewrite map_app. apply NoDup_snoc; auto.
    cbn. intros X. apply in_map_iff in X as ([m p] & E & X). cbn in E. subst m. destruct (R3 h n p X) as (A & _). now apply Hf in A.
  - intros k m H. destruct (R5 k m H) as (p & A & B). exists p. rewrite Ht, Hs. split; auto.
  - intros m H. destruct (R8 m H) as [p A]. exists p. auto.
  - intros m H. destruct (R11 m H) as (p & A & B). exists p. auto.
  - intros m p H [x A] B. apply Hi in A as [A|(-> & -> & ->)]; [|contradiction].
    apply (R12 m p); auto. now exists x.
Qed.

Lemma rinv_quiet s s' c :
  rinv s -> s_log s' = s_log s ++ c -> forallb neutral c = true -> s_nreq s' = s_nreq s -> s_res s' = s_res s ->
  (forall x, ch_up (s_ch s' x) = ch_up (s_ch s x)) ->
  (forall x, ch_client (s_ch s' x) = true -> ch_client (s_ch s x) = true) ->
  (forall x, ch_engine (s_ch s' x) = true -> ch_engine (s_ch s x) = true) -> rinv s'.
Proof.
  intros R E1 E2 E3 E4 E5 E6 E7. apply (rinv_neutral s s' c); auto. intros x [X|X] _; auto.
Qed.
Ltac rquiet s R c := apply (rinv_quiet s _ c R); [reflexivity|reflexivity|reflexivity|reflexivity|..].
Lemma rinv_fwd s id n o s' : hinv s -> rinv s -> s_phase s <> PStop -> fwd s id n o s' -> rinv s'.
Proof.
  intros Hh R Hp F. destruct F; [|now apply rinv_stop].
  rquiet s R [OForward n (rc_addr c) o]; auto.
Qed.
Lemma rinv_moved E s id c : rinv s -> rinv (moved E s id c).
Proof. intros R. unfold moved. destruct (baddr_eqb _ _); auto. apply (rinv_quiet s _ [] R); auto. symmetry. apply app_nil_r. Qed.
Lemma rinv_sent s a ser i s' : rinv s -> sent s a ser i s' -> rinv s'.
Proof.
  intros R S. destruct S as [n r Hr|Hr].
  - unfold r_resolve in Hr. destruct (ikey i) as [k|]; [|discriminate].
    destruct (r_find k (s_res s)) as [m|] eqn:F; [|discriminate]. injection Hr as -> <-.
    now apply (rinv_answer s _ [] n (r_del k (s_res s)) k ser i R F).
  - apply (rinv_quiet s _ [] R); try reflexivity; try (symmetry; apply app_nil_r).
    + intros x. pj. apply push_ch_meta.
    + intros x. pj. intros H. rewrite <- H. symmetry. apply push_ch_meta.
    + intros x. pj. intros H. rewrite <- H. symmetry. apply push_ch_meta.
Qed.
(** Handles not given out yet have empty channels. *)
Definition fresh (s : sys) : Prop := forall h, (s_nh s <= h)%nat -> ch_up (s_ch s h) = [] /\ ch_down (s_ch s h) = [].
Lemma push_ch_gone i hs f x : ch_client (f x) = false -> push_ch i hs f x = f x.
Proof.
  revert f. induction hs as [|h r IH]; intros f Hc; cbn; auto.
  destruct (ch_client (f h)) eqn:X; [|now apply IH]. assert (x <> h) by congruence.
  rewrite IH; rewrite set_ch_other by auto; auto.
Qed.
Lemma fresh_same s s' :
  fresh s -> (s_nh s <= s_nh s')%nat -> (forall h, (s_nh s' <= h)%nat -> ch_up (s_ch s' h) = ch_up (s_ch s h) /\ ch_down (s_ch s' h) = ch_down (s_ch s h)) -> fresh s'.
Proof. intros F Hn H h Hh. destruct (H h Hh) as [-> ->]. apply F. lia. Qed.
Lemma fresh_stop s : fresh s -> fresh (stop s).
Proof.
  intros F. rewrite stop_eq. apply (fresh_same s); auto. pj. intros h _. rewrite ends_ch_at. now destruct (is_in h (ended s)).
Qed.
Lemma fresh_fwd s id n o s' : fresh s -> fwd s id n o s' -> fresh s'.
Proof. intros F H. destruct H; [|now apply fresh_stop]. apply (fresh_same s); auto. Qed.
Lemma fresh_moved E s id c : fresh s -> fresh (moved E s id c).
Proof. intros F. unfold moved. destruct (baddr_eqb _ _); auto. Qed.
Lemma fresh_sent s a ser i s' : hinv s -> fresh s -> sent s a ser i s' -> fresh s'.
Proof.
  intros Hh F S. destruct S; apply (fresh_same s _ F); auto. intros h Hz. pj. cbn in Hz.
  rewrite push_ch_gone; auto. destruct (ch_client (s_ch s h)) eqn:X; auto. apply (h_live s Hh) in X. lia.
Qed.
Lemma fresh_taken s h q n o res dropped : ch_up (s_ch s h) = (n, o) :: q -> fresh s -> fresh (taken s h q n res dropped).
Proof.
  intros Hu F. apply (fresh_same s _ F); auto. intros x Hx. pj. cbn in Hx. unfold set_ch. destruct (x =? h)%nat eqn:X; auto.
  apply Nat.eqb_eq in X; subst x. apply F in Hx as [Hx _]. congruence.
Qed.
Lemma fresh_trans E s e s' : hinv s -> fresh s -> trans E s e s' -> fresh s'.
Proof.
  intros Hh F T. destruct T;
    repeat match goal with
      | H : fresh ?x |- fresh ?x => exact H
      | |- fresh (stop _) => apply fresh_stop
      end; try (apply (fresh_same s _ F); [pj; lia|]; intros z Hz; pj; auto; fail).
  - apply (fresh_same s _ F); [pj; lia|]. pj. intros h Hz. rewrite set_ch_other by lia. auto.
  - apply (fresh_same s _ F); [pj; lia|]. pj. intros x Hz. unfold set_ch. destruct (x =? h)%nat eqn:X; auto. apply Nat.eqb_eq in X; subst; auto.
  - apply (fresh_same s _ F); [pj; lia|]. pj. intros x Hz. unfold set_ch. destruct (x =? h)%nat eqn:X; auto. apply Nat.eqb_eq in X; subst; auto.
  - apply (fresh_same s _ F); [pj; lia|]. pj. intros x Hz. unfold set_ch. destruct (x =? h)%nat eqn:X; auto. apply Nat.eqb_eq in X; subst; auto.
  - apply (fresh_same s _ F); [pj; lia|]. pj. intros x Hz. rewrite ends_ch_at. destruct (is_in x (regq_handles s)); auto.
  - apply (fresh_same s _ F); [pj; lia|]. pj. intros x Hz. apply (h_live s Hh) in H. rewrite set_ch_other by lia. auto.
  - apply (fresh_same s _ F); [pj; lia|]. pj. intros x Hz. apply (h_live s Hh) in H. rewrite set_ch_other by lia. auto.
  - apply (fresh_same s _ F); [pj; lia|]. pj. intros x Hz. apply (h_live s Hh) in H. rewrite set_ch_other by lia. auto.
  - refine (fresh_fwd _ _ _ _ _ _ H5). eapply fresh_taken; eauto.
  - apply (fresh_same (taken s h q n res dropped)); auto. eapply fresh_taken; eauto.
  - apply (fresh_same (taken s h q n res dropped)); auto. eapply fresh_taken; eauto.
  - refine (fresh_fwd _ _ _ _ _ _ H6). apply fresh_moved. eapply fresh_taken; eauto.
  - refine (fresh_fwd _ _ _ _ _ _ H1). apply fresh_moved. apply (fresh_same s _ F); auto.
  - refine (fresh_fwd _ _ _ _ _ _ H0). apply fresh_moved. apply (fresh_same s _ F); auto.
  - refine (fresh_sent _ _ _ _ _ _ _ H0); auto. apply (hinv_same s _ Hh); auto. pj. split; congruence.
  - refine (fresh_sent _ _ _ _ _ _ _ H4); auto. apply (hinv_same s _ Hh); auto. pj. tauto.
Qed.
Lemma rinv_trans E s e s' : wf E s -> hinv s -> fresh s -> rinv s -> trans E s e s' -> rinv s'.
Proof.
  intros W Hh Hf R T.
  assert (Hopen : forall c, In c (s_clients s) -> s_phase s <> PStop -> ch_client (s_ch s (rc_h c)) = true \/ ch_engine (s_ch s (rc_h c)) = true).
  { intros c Hc Hp. right. apply (h_engine s Hh). left. split; auto. now apply in_map. }
  assert (Hl0 : forall l : list obs, l = l ++ []) by (intros; symmetry; apply app_nil_r).
  destruct T.
  - apply (rinv_quiet s _ [] R); auto.
  - assert (U : ch_up (s_ch s (s_nh s)) = []) by (apply Hf; lia).
    apply (rinv_neutral s _ [] R); auto; pj.
    + intros x. unfold set_ch. destruct (x =? s_nh s)%nat eqn:X; auto. apply Nat.eqb_eq in X; subst x. pj. auto.
    + intros x. unfold set_ch. destruct (x =? s_nh s)%nat eqn:X; auto. apply Nat.eqb_eq in X; subst x. congruence.
  - rquiet s R [ORegErr (s_nh s)]; auto.
  - rquiet s R [OConfirm h]; intros x; pj; unfold set_ch; destruct (x =? h)%nat eqn:X; auto; apply Nat.eqb_eq in X; subst x; auto.
  - apply (rinv_cancels s _ h [] [ORegErr h] R); auto; pj.
    + intros x. unfold set_ch; destruct (x =? h)%nat eqn:X; auto; apply Nat.eqb_eq in X; subst x; auto.
    + intros x. unfold set_ch; destruct (x =? h)%nat eqn:X; auto; apply Nat.eqb_eq in X; subst x; pj.
      intros [Y|Y]; [discriminate|auto].
  - apply (rinv_quiet s _ [] R); auto; pj; intros x; unfold set_ch; destruct (x =? h)%nat eqn:X; auto; apply Nat.eqb_eq in X; subst x; auto.
    discriminate.
  - apply (rinv_quiet s _ [] R); auto.
  - (* manager dropped after the engine *)
    pose proof (drop_engine_ends_eq (regq_handles s) (with_regs s (s_regq s) (s_acks s) false [])) as Hd. cbn [s_ch with_regs] in Hd. rewrite <- Hd.
    apply rinv_drop_ends.
    + apply (rinv_quiet s _ [] R); auto.
    + pose proof (h_nodup s Hh) as Hn. apply NoDup_rev in Hn. rewrite rev_app_distr in Hn. apply NoDup_app_l in Hn.
      apply NoDup_rev in Hn. now rewrite rev_involutive in Hn.
    + intros h Hi. apply (h_engine s Hh). auto.
  - apply rinv_issue; auto.
  - rquiet s R [ORefuse h o]; auto.
  - rquiet s R [OGot h i]; intros x; pj; unfold set_ch; destruct (x =? h)%nat eqn:X; auto; apply Nat.eqb_eq in X; subst x; auto.
  - rquiet s R [OGone h]; auto.
  - apply (rinv_cancels s _ h (if ch_engine (s_ch s h) then [] else queued_requests (s_ch s h)) [] R); auto; pj.
    + destruct (ch_engine (s_ch s h)) eqn:En; auto. right. rewrite set_ch_same. cbn. auto.
    + destruct (ch_engine (s_ch s h)); reflexivity.
    + intros x. unfold set_ch; destruct (x =? h)%nat eqn:X; auto; apply Nat.eqb_eq in X; subst x; auto.
    + intros x. unfold set_ch; destruct (x =? h)%nat eqn:X; auto; apply Nat.eqb_eq in X; subst x; pj.
      intros [Y|Y]; [discriminate|auto].
  - rquiet s R [ODial (broker_address (e_cfg E)) true]; auto.
  - apply rinv_stop; [apply (hinv_same s _ Hh); auto; tauto| |pj; congruence].
    rquiet s R [ODial (broker_address (e_cfg E)) false]; auto.
  - subst h. refine (rinv_fwd _ _ _ _ _ _ _ _ H5); [now apply hinv_taken| |pj; congruence].
    eapply rinv_taken; eauto. apply Hopen; auto; congruence.
  - subst h. apply (rinv_quiet (taken s (rc_h c) q n res dropped) _ []); auto.
    eapply rinv_taken; eauto. apply Hopen; auto; congruence.
  - subst h. apply (rinv_quiet (taken s (rc_h c) q n res dropped) _ []); auto.
    eapply rinv_taken; eauto. apply Hopen; auto; congruence.
  - subst h. refine (rinv_fwd _ _ _ _ _ _ _ _ H6); [now apply hinv_moved, hinv_taken| |rewrite moved_phase; pj; congruence].
    apply rinv_moved. eapply rinv_taken; eauto. apply Hopen; auto; congruence.
  - apply rinv_stop; auto. congruence.
  - apply rinv_stop; [apply (hinv_same s _ Hh); auto; tauto| |pj; congruence]. rquiet s R [OAuthed n r]; auto.
  - rquiet s R [OAuthed n (Ok d)]; auto.
  - refine (rinv_fwd _ _ _ _ _ _ _ _ H1); [apply hinv_moved| |rewrite moved_phase; pj; congruence].
    + apply (hinv_same s _ Hh); auto; tauto.
    + apply rinv_moved. rquiet s R [OAuthed n (Ok d)]; auto.
  - refine (rinv_fwd _ _ _ _ _ _ _ _ H0); [apply hinv_moved| |rewrite moved_phase; pj; congruence].
    + apply (hinv_same s _ Hh); auto; tauto.
    + apply rinv_moved. rquiet s R [ODial (caddr E c) true]; auto.
  - apply rinv_stop; [apply (hinv_same s _ Hh); auto; tauto| |pj; congruence]. rquiet s R [ODial (caddr E c) false]; auto.
  - refine (rinv_sent _ _ _ _ _ _ H0). rquiet s R [OHandle a ser i]; auto.
  - apply rinv_stop; auto. congruence.
  - rquiet s R [OHandle a ser InPing; OPonged a]; auto.
  - apply rinv_stop; [apply (hinv_same s _ Hh); auto; tauto| |pj; congruence]. rquiet s R [OHandle a ser InPing]; auto.
  - refine (rinv_sent _ _ _ _ _ _ H4). rquiet s R [OHandle a ser i]; auto.
  - apply rinv_stop; auto. congruence.
  - rquiet s R [OReg h id]; auto.
  - apply rinv_stop; [|rquiet s R [OReg h id]; auto|pj; congruence].
    apply (hinv_reg s h id topic q); auto. pj. rewrite map_app. reflexivity.
  - apply rinv_stop; auto. congruence.
  - exact R.
  - apply (rinv_quiet s _ [OWrite a (ci_src x) (ci_out x) (io && match encodes E now (ci_out x) with Ok _ => true | _ => false end)] R); auto.
  - apply (rinv_quiet s _ [] R); auto.
  - apply (rinv_quiet s _ [] R); auto.
  - apply (rinv_quiet s _ [] R); auto.
  - apply (rinv_quiet s _ [] R); auto.
  - exact R.
  - rquiet s R [OArrive a (s_narr s) i]; auto.
  - rquiet s R [OArrive a (s_narr s) i]; auto.
  - rquiet s R [OArrive a (s_narr s) i]; auto.
Qed.
Lemma reach_rinv E h s : reach E h s -> hinv s /\ fresh s /\ rinv s.
Proof.
  intros H. split; [now apply reach_hinv in H|]. revert h s H.
  assert (X : forall h s, reach E h s -> hinv s /\ fresh s /\ rinv s).
  { apply (reach_inv E (fun s => hinv s /\ fresh s /\ rinv s)).
    - split; [apply (reach_hinv E []); reflexivity|]. split; [intros h _; split; reflexivity|].
      constructor; cbn; try tauto; try (constructor; fail).
    - intros s e s' W (Hh & Hf & R) T. split; [eapply hinv_trans; eauto|]. split; [eapply fresh_trans; eauto|eapply rinv_trans; eauto]. }
  intros h s H. apply X in H. tauto.
Qed.
