(** Parsing respects [same_wire]; getters respect [same_msg]. *)
From Verif Require Import Bytes Wire Utf8 Proto ProtoFacts SpecProto.
Open Scope N_scope.

Definition only {A} (n : N) (l : list (N * A)) : list (N * A) := filter (fun p => fst p =? n) l.

Definition here (d : nat) (m : mname) (n : N) (w : wval) : option message :=
  match find_field m n with
  | None => Some [(n, PUnk w)]
  | Some f =>
      match f_ty f, w with
      | TMsg sub, WLen b =>
          match d with
          | O => None
          | S d' => match parse_raw b with
                   | Some rs' => option_map (fun fs => [(n, PMsg fs)]) (interp d' sub rs')
                   | None => None
                   end
          end
      | _, _ => interp_leaf f n w
      end
  end.

Lemma interp_here d m n w r : interp d m ((n, w) :: r) =
  match here d m n w with Some x => option_map (app x) (interp d m r) | None => None end.
Proof. rewrite interp_cons. reflexivity. Qed.

Lemma interp_app d m a b : interp d m (a ++ b) =
  match interp d m a with Some x => option_map (app x) (interp d m b) | None => None end.
Proof.
  induction a as [|[n w] a IH].
  - cbn [app]. rewrite interp_nil. now destruct (interp d m b).
  - cbn [app]. rewrite !interp_here. destruct (here d m n w) as [x|]; [|reflexivity].
    rewrite IH. destruct (interp d m a) as [y|]; [|reflexivity]. cbn.
    destruct (interp d m b); [|reflexivity]. cbn. now rewrite app_assoc.
Qed.

Lemma ints_of_nums t n l x : ints_of t n l = Some x -> forall p, In p x -> fst p = n.
Proof.
  revert x. induction l as [|k l IH]; cbn; intros x H.
  - injection H as <-. intros p [].
  - destruct (int_of t k); [|discriminate]. destruct (ints_of t n l) as [y|]; [|discriminate].
    injection H as <-. intros p [<-|Hp]; [reflexivity|]. now apply (IH y).
Qed.

Lemma here_nums d m n w x : here d m n w = Some x -> forall p, In p x -> fst p = n.
Proof.
  unfold here. destruct (find_field m n) as [f|].
  2:{ intros H. injection H as <-. intros p [<-|[]]. reflexivity. }
  assert (HL : interp_leaf f n w = Some x -> forall p, In p x -> fst p = n).
  { unfold interp_leaf. intros H.
    destruct (is_int (f_ty f)).
    - destruct w; [| |destruct (f_card f)|].
      + destruct (int_of (f_ty f) n0); [|discriminate]. injection H as <-. intros p [<-|[]]. reflexivity.
      + injection H as <-. intros p [<-|[]]. reflexivity.
      + injection H as <-. intros p [<-|[]]. reflexivity.
      + injection H as <-. intros p [<-|[]]. reflexivity.
      + destruct (parse_packed b); [|discriminate]. eapply ints_of_nums; exact H.
      + injection H as <-. intros p [<-|[]]. reflexivity.
    - destruct (f_ty f); destruct w; try (injection H as <-; intros p [<-|[]]; reflexivity).
      destruct (utf8 b); [|discriminate]. injection H as <-; intros p [<-|[]]; reflexivity. }
  intros H. destruct (f_ty f) eqn:Et; try (now apply HL).
  destruct w; try (now apply HL).
  destruct d; [discriminate|]. destruct (parse_raw b); [|discriminate].
  destruct (interp d m0 l); [|discriminate]. injection H as <-. intros p [<-|[]]. reflexivity.
Qed.

Lemma only_app {A} n (a b : list (N * A)) : only n (a ++ b) = only n a ++ only n b.
Proof. apply filter_app. Qed.
Lemma only_same {A} n (x : list (N * A)) : (forall p, In p x -> fst p = n) -> only n x = x.
Proof.
  induction x as [|p x IH]; intros H; [reflexivity|]. cbn. rewrite (H p (or_introl eq_refl)), N.eqb_refl.
  f_equal. apply IH. intros q Hq. apply H. now right.
Qed.
Lemma only_other {A} n k (x : list (N * A)) : k <> n -> (forall p, In p x -> fst p = k) -> only n x = [].
Proof.
  intros Hk. induction x as [|p x IH]; intros H; [reflexivity|]. cbn. rewrite (H p (or_introl eq_refl)).
  destruct (N.eqb_spec k n); [contradiction|]. apply IH. intros q Hq. apply H. now right.
Qed.

Lemma interp_only d m rs : forall fs, interp d m rs = Some fs ->
  forall n, interp d m (only n rs) = Some (only n fs).
Proof.
  induction rs as [|[k w] rs IH]; intros fs H n.
  - rewrite interp_nil in H. injection H as <-. apply interp_nil.
  - rewrite interp_here in H. destruct (here d m k w) as [x|] eqn:Eh; [|discriminate].
    destruct (interp d m rs) as [y|] eqn:Ey; [|discriminate]. injection H as <-.
    rewrite only_app. pose proof (here_nums _ _ _ _ _ Eh) as Hn. unfold only at 1. cbn [filter fst].
    destruct (N.eqb_spec k n) as [->|Hne].
    + rewrite interp_here, Eh. fold (@only wval n rs). rewrite (IH y eq_refl n). cbn.
      now rewrite (only_same n x Hn).
    + fold (@only wval n rs). rewrite (IH y eq_refl n). now rewrite (only_other n k x Hne Hn).
Qed.

Lemma interp_total d m rs : (forall n, interp d m (only n rs) <> None) -> interp d m rs <> None.
Proof.
  intros H.
  assert (Hall : forall n w, In (n, w) rs -> here d m n w <> None).
  { intros n w Hin E. apply (H n).
    assert (Hi : In (n, w) (only n rs)) by (apply filter_In; cbn; now rewrite N.eqb_refl).
    apply in_split in Hi. destruct Hi as (a & b & ->). rewrite interp_app, interp_here, E.
    now destruct (interp d m a). }
  clear H. induction rs as [|[n w] rs IH]; [rewrite interp_nil; discriminate|].
  rewrite interp_here. destruct (here d m n w) as [x|] eqn:E; [|now apply (Hall n w (or_introl eq_refl)) in E].
  destruct (interp d m rs) as [y|]; [discriminate|]. exfalso. apply IH; [|reflexivity].
  intros n' w' Hin. apply Hall. now right.
Qed.

Lemma find_field_in m n f : find_field m n = Some f -> In f (fields m) /\ f_num f = n.
Proof. intros H. apply find_some in H. destruct H as [H1 H2]. apply N.eqb_eq in H2. auto. Qed.

Lemma interp_unknown d m n : find_field m n = None -> forall rs, interp d m (only n rs) <> None.
Proof.
  intros Hf rs. induction rs as [|[k w] rs IH]; [cbn; rewrite interp_nil; discriminate|].
  unfold only. cbn [filter fst]. destruct (N.eqb_spec k n) as [->|Hne].
  - rewrite interp_here. unfold here. rewrite Hf. fold (@only wval n rs). destruct (interp d m (only n rs)); [discriminate|congruence].
  - apply IH.
Qed.

(** The tables list each number once (checked by computation over the whole table). *)
Definition num_nodup (m : mname) : bool :=
  (fix go (l : list field) := match l with [] => true | f :: r => negb (existsb (fun g => f_num g =? f_num f) r) && go r end) (fields m).
Lemma num_nodup_all m : num_nodup m = true.
Proof. destruct m; vm_compute; reflexivity. Qed.

Lemma find_field_of m f : In f (fields m) -> find_field m (f_num f) = Some f.
Proof.
  pose proof (num_nodup_all m) as Hn. unfold num_nodup, find_field in *.
  induction (fields m) as [|g l IH]; [intros []|].
  apply andb_true_iff in Hn. destruct Hn as [Hg Hl]. intros [->|Hin]; cbn [find].
  - now rewrite N.eqb_refl.
  - destruct (N.eqb_spec (f_num g) (f_num f)) as [E|E]; [|now apply IH].
    exfalso. apply negb_true_iff in Hg. assert (existsb (fun g0 => f_num g0 =? f_num g) l = true); [|congruence].
    apply existsb_exists. exists f. split; [exact Hin|]. now apply N.eqb_eq.
Qed.

(** Unfolded one-level relations. *)
Definition wrel (d : nat) (f : field) (w w' : wval) : Prop :=
  w = w' \/
  match d with
  | O => False
  | S d' => exists sub b b' r r',
      f_ty f = TMsg sub /\ w = WLen b /\ w' = WLen b' /\
      parse_raw b = Some r /\ parse_raw b' = Some r' /\ same_wire d' sub r r'
  end.
Definition vrel (d : nat) (f : field) (v v' : pval) : Prop :=
  v = v' \/
  match d with
  | O => False
  | S d' => exists sub s s',
      f_ty f = TMsg sub /\ v = PMsg s /\ v' = PMsg s' /\ same_msg d' sub s s'
  end.
Lemma same_wire_unfold d m rs rs' : same_wire d m rs rs' <->
  forall f, In f (fields m) -> Forall2 (wrel d f) (occurrences (f_num f) rs) (occurrences (f_num f) rs').
Proof. destruct d; reflexivity. Qed.
Lemma same_msg_unfold d m fs fs' : same_msg d m fs fs' <->
  forall f, In f (fields m) -> Forall2 (vrel d f) (occurrences (f_num f) fs) (occurrences (f_num f) fs').
Proof. destruct d; reflexivity. Qed.

Lemma Forall2_refl' {A} (R : A -> A -> Prop) l : (forall x, R x x) -> Forall2 R l l.
Proof. intros H. induction l; constructor; auto. Qed.
Lemma same_msg_refl d m fs : same_msg d m fs fs.
Proof. apply same_msg_unfold. intros f _. apply Forall2_refl'. now left. Qed.
Lemma same_wire_refl d m rs : same_wire d m rs rs.
Proof. apply same_wire_unfold. intros f _. apply Forall2_refl'. now left. Qed.

Lemma only_occ {A} n (l : list (N * A)) : only n l = map (fun v => (n, v)) (occurrences n l).
Proof.
  unfold only, occurrences. induction l as [|[k v] l IH]; [reflexivity|]. cbn [filter fst].
  destruct (N.eqb_spec k n) as [->|]; cbn [map snd]; [now f_equal|exact IH].
Qed.
Lemma occ_only {A} n (l : list (N * A)) : occurrences n (only n l) = occurrences n l.
Proof. unfold only, occurrences. f_equal. induction l as [|p l IH]; [reflexivity|]. cbn. destruct (fst p =? n) eqn:E; cbn; [rewrite E; now f_equal|exact IH]. Qed.

Lemma interp_occ d : (forall d', (d' < d)%nat -> forall m rs rs' fs, same_wire d' m rs rs' -> interp d' m rs = Some fs ->
    exists fs', interp d' m rs' = Some fs' /\ same_msg d' m fs fs') ->
  forall m f, find_field m (f_num f) = Some f ->
  forall l l', Forall2 (wrel d f) l l' ->
  forall fs, interp d m (map (fun v => (f_num f, v)) l) = Some fs ->
  exists fs', interp d m (map (fun v => (f_num f, v)) l') = Some fs' /\
    Forall2 (vrel d f) (map snd fs) (map snd fs') /\ (forall p, In p fs' -> fst p = f_num f).
Proof.
  intros IHd m f Hf l l' HR. induction HR as [|w w' l l' Hw HR IH]; intros fs H; cbn [map] in *.
  - rewrite interp_nil in *. injection H as <-. exists []. repeat split; [constructor|intros p []].
  - rewrite interp_here in *. destruct (here d m (f_num f) w) as [x|] eqn:Eh; [|discriminate].
    destruct (interp d m (map (fun v => (f_num f, v)) l)) as [y|] eqn:Ey; [|discriminate].
    injection H as <-. destruct (IH y eq_refl) as (y' & -> & HF & Hn).
    assert (Hx : exists x', here d m (f_num f) w' = Some x' /\ Forall2 (vrel d f) (map snd x) (map snd x')).
    { destruct Hw as [->|Hw].
      - exists x. split; [exact Eh|]. apply Forall2_refl'. now left.
      - destruct d as [|d]; [contradiction|]. destruct Hw as (sub & b & b' & r & r' & Ht & -> & -> & Hr & Hr' & Hs).
        unfold here in Eh |- *. rewrite Hf, Ht, Hr in Eh. rewrite Hf, Ht, Hr'.
        destruct (interp d sub r) as [s|] eqn:Es; [|discriminate]. injection Eh as <-.
        destruct (IHd d (Nat.lt_succ_diag_r d) sub r r' s Hs Es) as (s' & -> & Hm).
        exists [(f_num f, PMsg s')]. split; [reflexivity|]. constructor; [|constructor].
        right. exists sub, s, s'. auto. }
    destruct Hx as (x' & Ex & HFx). rewrite Ex. cbn. exists (x' ++ y'). split; [reflexivity|]. split.
    + rewrite !map_app. now apply Forall2_app.
    + intros p Hp. apply in_app_or in Hp. destruct Hp as [Hp|Hp]; [eapply here_nums; eassumption|now apply Hn].
Qed.

Lemma interp_same d : forall m rs rs' fs, same_wire d m rs rs' -> interp d m rs = Some fs ->
  exists fs', interp d m rs' = Some fs' /\ same_msg d m fs fs'.
Proof.
  induction d as [d IHd] using lt_wf_ind. intros m rs rs' fs Hs Hi.
  rewrite same_wire_unfold in Hs.
  assert (Hper : forall f, In f (fields m) -> exists y, interp d m (only (f_num f) rs') = Some y /\
            Forall2 (vrel d f) (occurrences (f_num f) fs) (map snd y)).
  { intros f Hf. specialize (Hs f Hf).
    pose proof (interp_only d m rs fs Hi (f_num f)) as Ho. rewrite only_occ in Ho.
    destruct (interp_occ d IHd m f (find_field_of m f Hf) _ _ Hs _ Ho) as (y & Ey & HF & _).
    exists y. rewrite only_occ. split; [exact Ey|].
    replace (occurrences (f_num f) fs) with (map snd (only (f_num f) fs)) by reflexivity. exact HF. }
  destruct (interp d m rs') as [fs'|] eqn:E'.
  - exists fs'. split; [reflexivity|]. apply same_msg_unfold. intros f Hf.
    destruct (Hper f Hf) as (y & Ey & HF). pose proof (interp_only d m rs' fs' E' (f_num f)) as Ho.
    rewrite Ey in Ho. injection Ho as ->. exact HF.
  - exfalso. revert E'. apply interp_total. intros n.
    destruct (find_field m n) as [f|] eqn:Ef.
    + apply find_field_in in Ef. destruct Ef as [Hin <-]. destruct (Hper f Hin) as (y & -> & _). discriminate.
    + now apply interp_unknown.
Qed.

(** ** initialisation *)
Lemma present_occ n fs : present n fs =
  existsb (fun v => match v with PUnk _ => false | _ => true end) (occurrences n fs).
Proof.
  unfold present, occurrences. induction fs as [|[k v] fs IH]; [reflexivity|]. cbn [existsb filter fst snd].
  destruct (k =? n); cbn [andb map existsb snd]; now rewrite IH.
Qed.
Lemma vrel_known d f l l' : Forall2 (vrel d f) l l' ->
  existsb (fun v => match v with PUnk _ => false | _ => true end) l =
  existsb (fun v => match v with PUnk _ => false | _ => true end) l'.
Proof.
  induction 1 as [|v v' l l' Hv _ IH]; [reflexivity|]. cbn [existsb]. rewrite IH. f_equal.
  destruct Hv as [->|Hv]; [reflexivity|]. destruct d; [contradiction|].
  destruct Hv as (sub & s & s' & _ & -> & -> & _). reflexivity.
Qed.

Lemma inited_msg m fs : inited_val m (PMsg fs) =
  required_ok m fs && forallb (fun p => match find_field m (fst p) with
     | Some f => match f_ty f with TMsg sub => inited_val sub (snd p) | _ => true end | None => true end) fs.
Proof.
  cbn [inited_val]. f_equal. induction fs as [|[n v] fs IH]; [reflexivity|]. cbn [forallb fst snd]. now rewrite IH.
Qed.

Lemma initialized_same d : forall m fs fs', same_msg d m fs fs' ->
  initialized m fs = true -> initialized m fs' = true.
Proof.
  induction d as [d IHd] using lt_wf_ind. intros m fs fs' Hs.
  unfold initialized. rewrite !inited_msg, !andb_true_iff. intros [Hr Hf]. rewrite same_msg_unfold in Hs. split.
  - unfold required_ok in *. rewrite forallb_forall in *. intros f Hin. specialize (Hr f Hin).
    destruct (f_card f); try reflexivity. rewrite present_occ in *. rewrite <- (vrel_known d f _ _ (Hs f Hin)). exact Hr.
  - rewrite forallb_forall in *. intros [n v] Hin. cbn [fst snd].
    destruct (find_field m n) as [f|] eqn:Ef; [|reflexivity]. destruct (f_ty f) eqn:Et; try reflexivity.
    apply find_field_in in Ef. destruct Ef as [Hin' <-].
    specialize (Hs f Hin').
    assert (Hocc : In v (occurrences (f_num f) fs')).
    { unfold occurrences. apply in_map_iff. exists (f_num f, v). split; [reflexivity|].
      apply filter_In. split; [exact Hin|]. cbn. apply N.eqb_refl. }
    clear Hin. assert (Hf' : forall v0, In v0 (occurrences (f_num f) fs) -> inited_val m0 v0 = true).
    { intros v0 H0. unfold occurrences in H0. apply in_map_iff in H0. destruct H0 as ([k v1] & E & H0).
      cbn in E. subst v1. apply filter_In in H0. destruct H0 as [H0 Hk]. cbn in Hk. apply N.eqb_eq in Hk. subst k.
      specialize (Hf _ H0). cbn [fst snd] in Hf. rewrite (find_field_of m f Hin'), Et in Hf. exact Hf. }
    induction Hs as [|a a' l l' Ha Hs IH]; [destruct Hocc|].
    destruct Hocc as [->|Hocc].
    + specialize (Hf' a (or_introl eq_refl)). destruct Ha as [->|Ha]; [exact Hf'|].
      destruct d as [|d]; [contradiction|]. destruct Ha as (sub & s & s' & Et' & -> & -> & Hm).
      rewrite Et in Et'. injection Et' as <-.
      apply (IHd d (Nat.lt_succ_diag_r d) m0 s s' Hm Hf').
    + apply IH; [exact Hocc|]. intros v0 H0. apply Hf'. now right.
Qed.

(** Parsing two encodings that say the same thing. *)
Theorem parse_same m b b' rs rs' fs :
  parse_raw b = Some rs -> parse_raw b' = Some rs' -> same_wire recursion_limit m rs rs' ->
  parse_msg m b = Some fs ->
  exists fs', parse_msg m b' = Some fs' /\ same_msg recursion_limit m fs fs'.
Proof.
  unfold parse_msg. intros -> -> Hs H.
  destruct (interp recursion_limit m rs) as [x|] eqn:Ei; [|discriminate].
  destruct (initialized m x) eqn:En; [|discriminate]. injection H as <-.
  destruct (interp_same _ _ _ _ _ Hs Ei) as (fs' & -> & Hm). exists fs'.
  rewrite (initialized_same _ _ _ _ Hm En). auto.
Qed.

(** ** Getters *)
Lemma get_z_occ n fs : get_z n fs =
  fold_left (fun acc v => match v with PInt z => Some z | _ => acc end) (occurrences n fs) None.
Proof.
  unfold get_z, occurrences. generalize (@None Z). induction fs as [|[k v] fs IH]; intros a; [reflexivity|].
  cbn [fold_left filter fst snd]. destruct (k =? n); cbn [map fold_left snd]; apply IH.
Qed.
Lemma get_b_occ n fs : get_b n fs =
  fold_left (fun acc v => match v with PBytes z => Some z | _ => acc end) (occurrences n fs) None.
Proof.
  unfold get_b, occurrences. generalize (@None bytes). induction fs as [|[k v] fs IH]; intros a; [reflexivity|].
  cbn [fold_left filter fst snd]. destruct (k =? n); cbn [map fold_left snd]; apply IH.
Qed.
Lemma get_m_occ n fs : get_m n fs =
  fold_left (fun acc v => match v with PMsg z => Some z | _ => acc end) (occurrences n fs) None.
Proof.
  unfold get_m, occurrences. generalize (@None message). induction fs as [|[k v] fs IH]; intros a; [reflexivity|].
  cbn [fold_left filter fst snd]. destruct (k =? n); cbn [map fold_left snd]; apply IH.
Qed.
Lemma get_ms_occ n fs : get_ms n fs = flat_map (fun v => match v with PMsg x => [x] | _ => [] end) (occurrences n fs).
Proof.
  unfold get_ms, occurrences. induction fs as [|[k v] fs IH]; [reflexivity|].
  cbn [flat_map filter fst snd]. destruct (k =? n); cbn [map flat_map snd]; now rewrite IH.
Qed.

Definition opt_same (d : nat) (sub : mname) (a b : option message) : Prop :=
  match a, b with None, None => True | Some x, Some y => same_msg (pred d) sub x y | _, _ => False end.
Section Getters.
Variables (d : nat) (m : mname) (fs fs' : message) (f : field).
Hypothesis (Hs : same_msg d m fs fs') (Hf : In f (fields m)).
Lemma same_occ : Forall2 (vrel d f) (occurrences (f_num f) fs) (occurrences (f_num f) fs').
Proof. rewrite same_msg_unfold in Hs. now apply Hs. Qed.
Lemma same_get_z : get_z (f_num f) fs = get_z (f_num f) fs'.
Proof.
  rewrite !get_z_occ. generalize (@None Z). induction same_occ as [|v v' l l' Hv _ IH]; [reflexivity|]. intros a.
  cbn [fold_left]. rewrite IH. f_equal. destruct Hv as [->|Hv]; [reflexivity|].
  destruct d; [contradiction|]. destruct Hv as (sub & s & s' & _ & -> & -> & _). reflexivity.
Qed.
Lemma same_get_b : get_b (f_num f) fs = get_b (f_num f) fs'.
Proof.
  rewrite !get_b_occ. generalize (@None bytes). induction same_occ as [|v v' l l' Hv _ IH]; [reflexivity|]. intros a.
  cbn [fold_left]. rewrite IH. f_equal. destruct Hv as [->|Hv]; [reflexivity|].
  destruct d; [contradiction|]. destruct Hv as (sub & s & s' & _ & -> & -> & _). reflexivity.
Qed.
Lemma same_get_m sub : f_ty f = TMsg sub -> opt_same d sub (get_m (f_num f) fs) (get_m (f_num f) fs').
Proof.
  intros Ht. rewrite !get_m_occ.
  assert (H : forall a b, opt_same d sub a b -> opt_same d sub
     (fold_left (fun acc v => match v with PMsg z => Some z | _ => acc end) (occurrences (f_num f) fs) a)
     (fold_left (fun acc v => match v with PMsg z => Some z | _ => acc end) (occurrences (f_num f) fs') b)).
  { induction same_occ as [|v v' l l' Hv _ IH]; [auto|]. intros a b Hab. cbn [fold_left]. apply IH.
    destruct Hv as [<-|Hv].
    - destruct v; try exact Hab. apply same_msg_refl.
    - clear IH. destruct d; [contradiction|]. destruct Hv as (sub' & s & s' & Ht' & -> & -> & Hm).
      rewrite Ht in Ht'. injection Ht' as <-. exact Hm. }
  apply H. exact I.
Qed.
Lemma same_get_u : get_u (f_num f) fs = get_u (f_num f) fs'.
Proof. unfold get_u. now rewrite same_get_z. Qed.
Lemma same_get_e e : get_e e (f_num f) fs = get_e e (f_num f) fs'.
Proof. unfold get_e. now rewrite same_get_z. Qed.
End Getters.
