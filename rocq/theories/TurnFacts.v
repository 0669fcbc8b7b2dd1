(** Facts about the polling order: extending a schedule, and checking a concrete one. *)
From Verif Require Import Bytes Errors Wire Proto Codec Address Message Client Engine SpecEngine SpecEngine2 SpecTurn EngineFacts EngineInv.
Open Scope N_scope.

Lemma last_split {A} (h : list A) e h1 x h2 : h ++ [e] = h1 ++ x :: h2 -> (h2 = [] /\ h1 = h /\ x = e) \/ exists g, h2 = g ++ [e] /\ h = h1 ++ x :: g.
Proof.
  intros X. destruct h2 as [|y r] using rev_ind.
  - left. apply app_inj_tail in X as [-> ->]. auto.
  - clear IHr. right. exists r. change (h1 ++ x :: r ++ [y]) with (h1 ++ (x :: r) ++ [y]) in X. rewrite app_assoc in X. apply app_inj_tail in X as [-> ->]. auto.
Qed.
(** What the engine may take next, atomically. *)
Definition may_take (rank : nat -> baddr -> nat) (s : sys) (e : event) : Prop :=
  match e with
  | EvClient c => forall d, In d (clients_before c (s_log s)) -> idle_client d s
  | EvConn a => forall b, In b (map fst (s_conns s)) -> (rank (length (s_conns s)) b < rank (length (s_conns s)) a)%nat -> idle_conn b s
  | _ => True
  end.
Lemma found_now E h s (P : sys -> Prop) : reach E h s -> P s -> found E h P.
Proof. intros H X. exists h, [], s. rewrite app_nil_r. split; [reflexivity|]. split; [intros e []|auto]. Qed.
Lemma polled_nil E rank : as_polled E rank [].
Proof. intros h1 e h2 s X. destruct h1; discriminate. Qed.
Lemma polled_snoc E rank h e s : as_polled E rank h -> reach E h s -> may_take rank s e -> as_polled E rank (h ++ [e]).
Proof.
  intros A H M h1 x h2 t X R. apply last_split in X as [(-> & -> & ->)|(g & -> & ->)]; [|exact (A h1 x g t eq_refl R)].
  assert (t = s) as -> by (unfold reach in *; congruence). destruct e; auto.
  - intros d D. apply (found_now E h s); auto.
  - intros b n B L. apply (found_now E h s); auto.
Qed.
(** As many steps, each in turn. *)
Lemma polled_app E rank : forall h2 h s, as_polled E rank h -> reach E h s ->
  (forall g1 e g2 t, h2 = g1 ++ e :: g2 -> run E s g1 = Some t -> may_take rank t e) -> run E s h2 <> None -> as_polled E rank (h ++ h2).
Proof.
  induction h2 as [|e h2 IH]; intros h s A H M R; [now rewrite app_nil_r|].
  cbn [run] in R. destruct (step E s e) as [s1|] eqn:S; [|congruence].
  change (h ++ e :: h2) with (h ++ [e] ++ h2). rewrite app_assoc. apply (IH _ s1).
  - apply (polled_snoc E rank h e s A H). exact (M [] e h2 s eq_refl eq_refl).
  - unfold reach in *. rewrite run_app, H. cbn [run]. now rewrite S.
  - intros g1 x g2 t -> Rt. apply (M (e :: g1) x g2 t eq_refl). cbn [run]. now rewrite S.
  - exact R.
Qed.
Lemma polled_prefix E rank h1 h2 : as_polled E rank (h1 ++ h2) -> as_polled E rank h1.
Proof. intros A g1 e g2 s -> R. apply (A g1 e (g2 ++ h2) s); [now rewrite <- app_assoc|exact R]. Qed.

(** * A check for concrete schedules: everybody earlier is idle at that very moment,
    and so is every other connection. *)
Definition idle_clientb (s : sys) (c : nat) : bool := match ch_up (s_ch s c) with [] => ch_client (s_ch s c) | _ => false end.
Definition idle_connb (k : conn) : bool := match k_n2e k with [] => k_alive k | _ => false end.
Definition may_takeb (s : sys) (e : event) : bool :=
  match e with
  | EvClient c => forallb (idle_clientb s) (clients_before c (s_log s))
  | EvConn a => forallb (fun b => baddr_eqb b a || match get_conn b (s_conns s) with Some k => idle_connb k | None => true end) (map fst (s_conns s))
  | _ => true
  end.
Fixpoint orderly (E : env) (s : sys) (h : list event) : bool :=
  match h with [] => true | e :: r => may_takeb s e && match step E s e with Some t => orderly E t r | None => false end end.
Lemma may_takeb_ok rank s e : may_takeb s e = true -> may_take rank s e.
Proof.
  destruct e; cbn [may_takeb may_take]; auto; intros X.
  - intros d D. rewrite forallb_forall in X. specialize (X d D). unfold idle_clientb in X. unfold idle_client. destruct (ch_up (s_ch s d)); [auto|discriminate].
  - intros b B L k K. rewrite forallb_forall in X. specialize (X b B). destruct (baddr_eqb b a) eqn:Q.
    + apply baddr_eqb_spec in Q. subst b. exfalso. exact (Nat.lt_irrefl _ L).
    + cbn [orb] in X. rewrite K in X. unfold idle_connb in X. destruct (k_n2e k); [auto|discriminate].
Qed.
Lemma orderly_polled E h : orderly E sys_init h = true -> forall rank, as_polled E rank h.
Proof.
  intros O rank. change h with ([] ++ h). apply (polled_app E rank h [] sys_init); [apply polled_nil|reflexivity| |].
  - revert O. generalize sys_init. induction h as [|e h IH]; intros s O g1 x g2 t X R; [destruct g1; discriminate|].
    cbn [orderly] in O. apply andb_prop in O as [O1 O2]. destruct (step E s e) as [s1|] eqn:S; [|discriminate].
    destruct g1 as [|y g1]; injection X as <- X.
    + cbn [run] in R. injection R as <-. now apply may_takeb_ok.
    + cbn [run] in R. rewrite S in R. exact (IH s1 O2 g1 x g2 t X R).
  - revert O. generalize sys_init. induction h as [|e h IH]; intros s O; [discriminate|]. cbn [orderly run] in *. apply andb_prop in O as [_ O]. destruct (step E s e); [auto|discriminate].
Qed.
