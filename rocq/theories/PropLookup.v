(** C62: when a lookup goes through the proxy. *)
From Verif Require Import Bytes Errors Wire Proto Address Message Client SpecClient PropClient SpecKeys Engine SpecEngine EngineFacts EngineEx PropEngine.
Open Scope N_scope.

(** Request [n] was answered with [j], which the requester got from a lookup answer
    [r] of type Connect received over the connection to [a]. If the broker did not
    ask for the proxy or named a url that is the text of [a], the lookup succeeds at
    once, whatever else happens; otherwise it goes on to connect through the proxy to
    the broker named. *)
Theorem C62_lookup_done_or_proxied : forall E h s l0 a r n ser j l2 id name topic c,
  reach E h s -> s_log s = l0 ++ OHandle a ser (InLookup r) :: OAnswer n ser j :: l2 -> lr_type r = LConnect ->
  if lr_proxy r && negb (bytes_eqb (lr_url r) (written_as a))
  then lookup_run id name topic c [Resolved j] = ([OLookup (request_id c) topic; OConnect (mk_connect None None (Some (Proxy [] (lr_url r))))], None)
  else forall rs, lookup_run id name topic c (Resolved j :: rs) = ([OLookup (request_id c) topic], Some (Ok tt)).
Proof.
  intros E h s l0 a r n ser j l2 id name topic c H El Ty.
  destruct (C34_answer_of_its_kind E h s (l0 ++ [OHandle a ser (InLookup r)]) n ser j l2 H) as (l0' & a' & i0 & k & E2 & _ & Sj & _).
  { rewrite El, <- app_assoc. reflexivity. }
  apply app_inj_tail in E2 as [<- E2]. injection E2 as <- <-. cbn [seen_as] in Sj. destruct Sj as (r' & -> & _ & Eu & _ & Et & _ & Ep). rewrite <- Et in Ty.
  destruct (lr_proxy r && negb (bytes_eqb (lr_url r) (written_as a))) eqn:B.
  - assert (P' : lr_proxy r' = true).
    { apply Ep. apply andb_true_iff in B as [B1 B2]. split; auto. intros X. apply negb_true_iff in B2. apply bytes_eqb_spec in X. congruence. }
    destruct (C21_connect_proxied id name topic c r' [] (mk_config [] 0) Ty P') as [X _]. rewrite X. cbn. rewrite Eu. reflexivity.
  - assert (P' : lr_proxy r' = false).
    { destruct (lr_proxy r'); auto. destruct Ep as [Ep _]. destruct (Ep eq_refl) as [X Y]. rewrite X in B. cbn in B. apply negb_false_iff, bytes_eqb_spec in B. contradiction. }
    intros rs. exact (C21_connect_direct id name topic c r' rs Ty P').
Qed.
Print Assumptions C62_lookup_done_or_proxied.
(** The text of a connection through a proxy is longer than the url it was made to:
    the broker at its end naming that url and asking for the proxy, as it does, is
    not recognised, and a lookup over a connection through a proxy makes the same
    connect once more. *)
Theorem C62_proxied_connection_not_recognised : forall E h s l0 u p r n ser j l2 id name topic c,
  reach E h s -> s_log s = l0 ++ OHandle (Proxy u p) ser (InLookup r) :: OAnswer n ser j :: l2 -> lr_type r = LConnect -> lr_proxy r = true ->
  lr_url r = u \/ lr_url r = p ->
  lookup_run id name topic c [Resolved j] = ([OLookup (request_id c) topic; OConnect (mk_connect None None (Some (Proxy [] (lr_url r))))], None).
Proof.
  intros E h s l0 u p r n ser j l2 id name topic c H El Ty P U.
  pose proof (C62_lookup_done_or_proxied E h s l0 _ r n ser j l2 id name topic c H El Ty) as X. rewrite P in X.
  assert (B : bytes_eqb (lr_url r) (written_as (Proxy u p)) = false).
  { destruct (bytes_eqb (lr_url r) (written_as (Proxy u p))) eqn:B; auto. apply bytes_eqb_spec in B. cbn [written_as] in B. exfalso.
    assert (length (lr_url r) = length u + 4 + length p)%nat by (rewrite B, !app_length; cbn; lia). destruct U; subst; lia. }
  rewrite B in X. exact X.
Qed.
Print Assumptions C62_proxied_connection_not_recognised.
(** A lookup over the service connection is sent to broker "h" through the proxy;
    the second lookup, over that connection, is sent there again. A lookup answered
    over a direct connection with that connection's own url is done. *)
Definition y_pA : baddr := Proxy (base_url xA) (str "h").
Definition y_lookup : list event := x_reg2 ++ x_connect 0%nat ++
  [EvIssue 0%nat (OLookup 0 (str "t")); EvClient 0%nat; EvNet xA (f_lookup 0 (str "h") 1); EvConn xA;
   EvIssue 0%nat (OConnect (mk_connect None None (Some (Proxy [] (str "h"))))); EvClient 0%nat; EvDial true; EvWrite y_pA 0 true; EvNet y_pA f_connected; EvAnswered;
   EvIssue 0%nat (OLookup 1 (str "t")); EvClient 0%nat; EvNet y_pA (f_lookup 1 (str "h") 1); EvConn y_pA;
   EvIssue 1%nat (OLookup 2 (str "t")); EvClient 1%nat; EvNet xA (f_lookup 2 (base_url xA) 1); EvConn xA].
Example C62_meets : match xrun y_lookup with
  | Some l => exists l1 l2 l3 r1 r2 r3 s1 s2 s3 j1 j2 j3,
      l = l1 ++ OHandle xA s1 (InLookup r1) :: OAnswer 1 s1 j1 :: l2 ++ OHandle y_pA s2 (InLookup r2) :: OAnswer 3 s2 j2 :: l3 ++ [OHandle xA s3 (InLookup r3); OAnswer 4 s3 j3] /\
      lr_type r1 = LConnect /\ lr_proxy r1 = true /\ lr_url r1 = str "h" /\ lr_type r2 = LConnect /\ lr_proxy r2 = true /\ lr_url r2 = str "h" /\
      lr_type r3 = LConnect /\ lr_proxy r3 = true /\ lr_url r3 = written_as xA
  | None => False end.
Proof.
  destruct (xrun y_lookup) as [l|] eqn:R; [|vm_compute in R; discriminate].
  exists (firstn 16 l), (firstn 12 (skipn 18 l)), (firstn 4 (skipn 32 l)). vm_compute in R. injection R as <-.
  do 9 eexists. split; [vm_compute; reflexivity|]. vm_compute. repeat split.
Qed.
