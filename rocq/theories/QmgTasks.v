(* The queue manager: the coordinator does one thing at a time. *)
From Coq Require Import ZArith List Bool Lia.
From Verif Require Import QmgModel QmgSpec QmgProofs QmgEnt QmgQueues QmgOffers QmgLook QmgLook2 QmgAnswers.
Import ListNotations.
Local Open Scope Z_scope.

Definition completeI (e : effect) (I : list input) : Prop :=
  match e with
  | Spawn f _ pid => (exists ipc, In (Connect f pid ipc) I) \/ In (Dead pid) I
  | Stop _ pid _ => In (Dead pid) I
  | _ => True
  end.
Lemma complete_is e h : complete e h <-> completeI e (inputs h).
Proof. destruct e; cbn; tauto. Qed.
Lemma completeI_more e I I' : completeI e I -> completeI e (I ++ I').
Proof. destruct e; cbn; auto. - intros [(p & H)|H]; [left; exists p|right]; apply in_or_app; auto. - intro H. apply in_or_app; auto. Qed.
(* what the task waits for *)
Definition due (t : task) (e : effect) (pid : Z) : Prop := match t, e with TAdd f _, Spawn f' _ p => f = f' /\ p = pid | TRemove f _, Stop f' p _ => f = f' /\ p = pid | _, _ => False end.
Definition inc (t : task) (p : Z) (E : list effect) (I : list input) : Prop :=
  match t with
  | TAdd f _ => (exists c, In (Spawn f c p) E) /\ (forall ipc, ~ In (Connect f p ipc) I) /\ ~ In (Dead p) I
  | TRemove f _ => (exists ipc, In (Stop f p ipc) E) /\ ~ In (Dead p) I
  | TModify _ _ => True
  | TTell _ _ => False
  end.
Record pinv (s : state) (E : list effect) (I : list input) : Prop := {
  p_fresh : forall f c pid, In (Spawn f c pid) E -> pid < s_next s;
  p_live : forall f e, In e (entities f s) -> In (Spawn f (e_conf e) (e_pid e)) E /\ ~ In (Dead (e_pid e)) I;
  p_dead : forall p, In (Dead p) I -> p < s_next s;
  p_conn : forall f p q, In (Connect f p q) I -> p < s_next s;
  p_stop : forall f pid ipc, In (Stop f pid ipc) E -> exists c, In (Spawn f c pid) E }.
Record tinv (s : state) (E : list effect) (I : list input) : Prop := {
  t_idle : s_active s = None -> s_tasks s = [];
  t_act : forall t ps, s_active s = Some (t, ps) -> ps <> [] /\ forall p, In p ps -> inc t p E I;
  t_inc : forall e, In e E -> completeI e I \/ exists t ps pid, s_active s = Some (t, ps) /\ In pid ps /\ due t e pid }.
Definition allc (E : list effect) (I : list input) : Prop := forall e, In e E -> completeI e I.
Lemma spawn_facts f l : forall s, let '(s', ev, ps) := spawn f l s in
  s_next s <= s_next s' /\ (forall e, In e ev -> exists c pid, In c l /\ e = Spawn f c pid /\ In pid ps) /\ (forall p, In p ps -> s_next s <= p < s_next s' /\ exists c, In (Spawn f c p) ev) /\ (forall c, In c l -> exists p, In (Spawn f c p) ev /\ In p ps)
  /\ (forall e, In e (entities f s') <-> In e (entities f s) \/ exists c p, In (Spawn f c p) ev /\ e = Entity c p 0 1) /\ (forall g, g <> f -> entities g s' = entities g s).
Proof.
  induction l as [|c l IH]; intro s; cbn [spawn].
  - split; [lia|]. split; [intros e []|]. split; [intros p []|]. split; [intros c []|]. split; [|auto]. intro e. split; [auto|]. intros [H|(c & p & [] & _)]. auto.
  - set (s1 := with_entities f (entities f s ++ [Entity c (s_next s) 0 1]) (with_next (s_next s + 1) s)). specialize (IH s1). destruct (spawn f l s1) as [[s' ev] ps].
    assert (N : s_next s1 = s_next s + 1) by (unfold s1; now rewrite next_with). destruct IH as (A & B & C & D & F & G). rewrite N in *.
    split; [lia|]. split; [|split; [|split; [|split]]].
    + intros e [<-|J]; [exists c, (s_next s); cbn; auto|]. destruct (B e J) as (c' & pid & H1 & H2 & H3). exists c', pid. cbn. auto.
    + intros p [<-|J]; [split; [lia|exists c; now left]|]. destruct (C p J) as (H1 & c' & H2). split; [lia|]. exists c'. now right.
    + intros c' [<-|J]; [exists (s_next s); cbn; auto|]. destruct (D c' J) as (p & H1 & H2). exists p. cbn. auto.
    + intro e. rewrite F. unfold s1. rewrite entities_with, eqb_reflx. rewrite in_snoc. split.
      * intros [[H|H]|(c' & p & H1 & H2)]; [auto|right; exists c, (s_next s); cbn; auto|right; exists c', p; cbn; auto].
      * intros [H|(c' & p & [H1|H1] & H2)]; [auto|injection H1 as <- <-; auto|right; exists c', p; auto].
    + intros g Hg. rewrite G by auto. unfold s1. rewrite entities_with. destruct (Bool.eqb g f) eqn:X; [apply eqb_prop in X; contradiction|]. destruct g; reflexivity.
Qed.
(* the effects and the pids of a task that starts *)
Lemma pinv_start t s E I : pinv s E I -> pinv (fst (fst (start t s))) (E ++ snd (fst (start t s))) I.
Proof.
  intros [A B C D F]. destruct t as [f l|f l|f l|p k]; cbn [start].
  - pose proof (spawn_facts f l s) as H. destruct (spawn f l s) as [[s' ev] ps]. destruct H as (N & H1 & H2 & H3 & H4 & H5). cbn [fst snd]. split.
    + intros g c pid J. apply in_app_iff in J as [J|J]; [apply A in J; lia|]. destruct (H1 _ J) as (c' & pid' & _ & X & Y). injection X as -> -> ->. destruct (H2 _ Y). lia.
    + intros g e J. assert (In e (entities g s) \/ exists c p, In (Spawn g c p) ev /\ e = Entity c p 0 1) as [J'|(c & p & J1 & ->)]. { destruct (Bool.bool_dec g f) as [-> | X]; [now apply H4|rewrite H5 in J by auto; auto]. }
      * destruct (B g e J') as [B1 B2]. split; [apply in_or_app; auto|auto].
      * cbn. split; [apply in_or_app; auto|]. destruct (H1 _ J1) as (c' & pid' & _ & X & Y). injection X as -> -> ->. destruct (H2 _ Y) as [Y' _]. intro Z. apply C in Z. lia.
    + intros p J. apply C in J. lia.
    + intros g p q J. apply D in J. lia.
    + intros g pid ipc J. apply in_app_iff in J as [J|J]; [destruct (F _ _ _ J) as (c & K); exists c; apply in_or_app; auto|]. destruct (H1 _ J) as (c' & pid' & _ & X & _). discriminate.
  - cbn [fst snd]. assert (EN : forall g e, In e (entities g (with_entities f (map (fun e => if has_alias l e then set_life 4 e else e) (entities f s)) s)) -> exists e', In e' (entities g s) /\ e_conf e' = e_conf e /\ e_pid e' = e_pid e).
    { intros g e J. rewrite entities_with in J. destruct (Bool.eqb g f) eqn:G; [|eauto]. apply eqb_prop in G as ->. apply in_map_iff in J as (e' & <- & J). exists e'. destruct (has_alias l e'); auto. }
    assert (SP : forall g c pid, In (Spawn g c pid) (E ++ map (fun e => Stop f (e_pid e) (e_ipc e)) (filter (has_alias l) (entities f s))) <-> In (Spawn g c pid) E).
    { intros g c pid. rewrite in_app_iff. split; [|auto]. intros [J|J]; [auto|]. apply in_map_iff in J as (x & X & _). discriminate. }
    split; rewrite ?next_with; auto.
    + intros g c pid J. apply SP in J. eauto.
    + intros g e J. destruct (EN g e J) as (e' & J' & <- & <-). destruct (B g e' J') as [B1 B2]. split; [now apply SP|auto].
    + intros g pid ipc J. apply in_app_iff in J as [J|J]; [destruct (F _ _ _ J) as (c & K); exists c; now apply SP|]. apply in_map_iff in J as (x & X & J). injection X as <- <- <-. apply filter_In in J as [J _]. destruct (B f x J) as [B1 _]. exists (e_conf x). now apply SP.
  - cbn [fst snd]. assert (NO : forall e, In e (map fst (flat_map (modify_one f s) l)) -> exists p q c, e = Configure f p q c). { intros e J. apply in_map_iff in J as (x & <- & J). apply in_flat_map in J as (c & _ & J). unfold modify_one in J. destruct (find _ _) as [e|]; [|destruct J]. destruct J as [<-|[]]. cbn. eauto. }
    assert (SP : forall e, (forall p q c, e <> Configure f p q c) -> In e (E ++ map fst (flat_map (modify_one f s) l)) <-> In e E). { intros e X. rewrite in_app_iff. split; [|auto]. intros [J|J]; [auto|]. destruct (NO e J) as (p & q & c & Y). exfalso. eapply X; eauto. }
    split; auto.
    + intros g c pid J. apply SP in J; [eauto|discriminate].
    + intros g e J. destruct (B g e J) as [B1 B2]. split; [apply SP; [discriminate|auto]|auto].
    + intros g pid ipc J. apply SP in J; [|discriminate]. destruct (F _ _ _ J) as (c & K). exists c. apply SP; [discriminate|auto].
  - cbn [fst snd]. split; auto.
    + intros g c pid J. apply in_snoc in J as [J|J]; [eauto|discriminate].
    + intros g e J. destruct (B g e J) as [B1 B2]. split; [apply in_snoc; auto|auto].
    + intros g pid ipc J. apply in_snoc in J as [J|J]; [|discriminate]. destruct (F _ _ _ J) as (c & K). exists c. apply in_snoc. auto.
Qed.
Lemma start_due t s E I : pinv s E I -> allc E I -> let '(s', ev, ps) := start t s in (forall e, In e (E ++ ev) -> completeI e I \/ exists pid, In pid ps /\ due t e pid) /\ forall p, In p ps -> inc t p (E ++ ev) I.
Proof.
  intros [A B C D F] AC. destruct t as [f l|f l|f l|p k]; cbn [start].
  - pose proof (spawn_facts f l s) as H. destruct (spawn f l s) as [[s' ev] ps]. destruct H as (N & H1 & H2 & H3 & H4 & H5). split.
    + intros e J. apply in_app_iff in J as [J|J]; [left; auto|right]. destruct (H1 _ J) as (c & pid & _ & -> & K). exists pid. split; [auto|]. cbn. auto.
    + intros p J. destruct (H2 p J) as (L & c & K). cbn. split; [exists c; apply in_or_app; auto|]. split; intros; intro X; [apply D in X|apply C in X]; lia.
  - split.
    + intros e J. apply in_app_iff in J as [J|J]; [left; auto|right]. apply in_map_iff in J as (x & <- & J). exists (e_pid x). split; [now apply in_map|]. cbn. auto.
    + intros p J. apply in_map_iff in J as (x & <- & J). cbn. split; [exists (e_ipc x); apply in_or_app; right; apply in_map_iff; eauto|]. apply filter_In in J as [J _]. apply (B f x J).
  - split.
    + intros e J. apply in_app_iff in J as [J|J]; [left; auto|left]. apply in_map_iff in J as (x & <- & J). apply in_flat_map in J as (c & _ & J). unfold modify_one in J. destruct (find _ _) as [e|]; [|destruct J]. destruct J as [<-|[]]. exact Logic.I.
    + intros p J. exact Logic.I.
  - split; [|intros p' []]. intros e J. apply in_snoc in J as [J | ->]; [left; auto|left; exact Logic.I].
Qed.
(* the message is among the inputs *)
Definition heard (m : message) (I : list input) : Prop := match m with MConnect f pid => exists ipc, In (Connect f pid ipc) I | MConfigured _ _ => True | MDead pid => In (Dead pid) I end.
Lemma in_erase p pid l : In p (erase pid l) <-> In p l /\ p <> pid.
Proof. unfold erase. rewrite filter_In, negb_true_iff, Z.eqb_neq. tauto. Qed.
Lemma handle_in t m ps p : In p (handle t m ps) -> In p ps.
Proof. destruct t, m; cbn; auto; try (destruct (Bool.eqb _ _); auto); intro J; apply in_erase in J; tauto. Qed.
(* one that is taken away is complete *)
Lemma handle_out t m ps p e I : heard m I -> In p ps -> due t e p -> In p (handle t m ps) \/ completeI e I.
Proof.
  intros H J D. destruct t, e; cbn in D; try contradiction; destruct D as [<- ->].
  - destruct m as [f pid'|f pid'|pid']; cbn in *; auto.
    + destruct (Bool.eqb fwd f) eqn:X; auto. apply eqb_prop in X as <-. destruct (Z.eq_dec p pid') as [-> | Y]; [right; left; exact H|left; now apply in_erase].
    + destruct (Z.eq_dec p pid') as [-> | Y]; [right; right; exact H|left; now apply in_erase].
  - destruct m as [f pid'|f pid'|pid']; cbn in *; auto. destruct (Z.eq_dec p pid') as [-> | Y]; [right; exact H|left; now apply in_erase].
Qed.
Lemma tinv_coord a T s E I : (a = None -> T = []) -> (forall t ps, a = Some (t, ps) -> ps <> [] /\ forall p, In p ps -> inc t p E I) -> (forall e, In e E -> completeI e I \/ exists t ps pid, a = Some (t, ps) /\ In pid ps /\ due t e pid) -> tinv (with_coord a T s) E I.
Proof. intros A B C. split; auto. Qed.
Lemma pinv_coord a T s E I : pinv s E I -> pinv (with_coord a T s) E I.
Proof. intros [A B C D F]. split; auto. Qed.
Lemma advance_tinv m I T : heard m I -> forall s E, pinv s E I -> allc E I -> let '(s', ev) := advance T m s in tinv s' (E ++ ev) I /\ pinv s' (E ++ ev) I.
Proof.
  intro H. induction T as [|t T IH]; intros s E P AC; cbn [advance].
  - rewrite app_nil_r. split; [|now apply pinv_coord]. apply tinv_coord; auto. discriminate.
  - pose proof (start_due t s E I P AC) as D. pose proof (pinv_start t s E I P) as P'. destruct (start t s) as [[s1 ev] ps]. cbn [fst snd] in P'. destruct D as [D1 D2].
    destruct (handle t m ps) as [|p0 r] eqn:X.
    + assert (AC' : allc (E ++ ev) I). { intros e J. destruct (D1 e J) as [K|(pid & K1 & K2)]; [auto|]. destruct (handle_out t m ps pid e I H K1 K2) as [K|K]; [rewrite X in K; destruct K|auto]. }
      specialize (IH s1 _ P' AC'). destruct (advance T m s1) as [s2 ev2]. now rewrite app_assoc.
    + split; [|now apply pinv_coord]. apply tinv_coord.
      * discriminate.
      * intros t' ps' Y. injection Y as <- <-. split; [discriminate|]. intros p J. apply D2. rewrite <- X in J. eapply handle_in; eauto.
      * intros e J. destruct (D1 e J) as [K|(pid & K1 & K2)]; [auto|]. destruct (handle_out t m ps pid e I H K1 K2) as [K|K]; [|auto]. right. exists t, (p0 :: r), pid. rewrite <- X. auto.
Qed.
Lemma coordinate_tinv m s E I : heard m I -> pinv s E I -> (s_active s = None -> s_tasks s = []) -> (forall t ps, s_active s = Some (t, ps) -> ps <> [] /\ forall p, In p (handle t m ps) -> inc t p E I) -> (forall e, In e E -> completeI e I \/ exists t ps pid, s_active s = Some (t, ps) /\ In pid ps /\ due t e pid) ->
  let '(s', ev) := coordinate m s in tinv s' (E ++ ev) I /\ pinv s' (E ++ ev) I.
Proof.
  intros H P A B C. unfold coordinate. destruct (s_active s) as [[t ps]|] eqn:X.
  - destruct (B t ps eq_refl) as [B1 B2]. destruct (handle t m ps) as [|p0 r] eqn:Y.
    + apply advance_tinv; auto. intros e J. destruct (C e J) as [K|(t' & ps' & pid & K1 & K2 & K3)]; [auto|]. injection K1 as <- <-. destruct (handle_out t m ps pid e I H K2 K3) as [K|K]; [rewrite Y in K; destruct K|auto].
    + rewrite app_nil_r. split; [|now apply pinv_coord]. apply tinv_coord.
      * discriminate. * intros t' ps' Z. injection Z as <- <-. split; [discriminate|auto].
      * intros e J. destruct (C e J) as [K|(t' & ps' & pid & K1 & K2 & K3)]; [auto|]. injection K1 as <- <-. destruct (handle_out t m ps pid e I H K2 K3) as [K|K]; [|auto]. right. exists t, (p0 :: r), pid. rewrite <- Y. auto.
  - rewrite app_nil_r. split; [|auto]. split; rewrite ?X; auto; try discriminate.
Qed.
Lemma andthen_tinv t s E I : pinv s E I -> tinv s E I -> let '(s', ev) := andthen t s in tinv s' (E ++ ev) I /\ pinv s' (E ++ ev) I.
Proof.
  intros P [A B C]. unfold andthen. destruct (s_active s) as [[t0 ps0]|] eqn:X.
  - rewrite app_nil_r. split; [|now apply pinv_coord]. rewrite <- X. apply tinv_coord; rewrite X; auto. discriminate.
  - assert (AC : allc E I). { intros e J. destruct (C e J) as [K|(t' & ps' & pid & K1 & _)]; [auto|discriminate]. }
    pose proof (start_due t s E I P AC) as D. pose proof (pinv_start t s E I P) as P'. destruct (start t s) as [[s1 ev] ps]. cbn [fst snd] in P'. destruct D as [D1 D2].
    split; [|now apply pinv_coord]. apply tinv_coord.
    + auto.
    + intros t' ps' Y. destruct ps as [|p0 r]; [discriminate|]. injection Y as <- <-. split; [discriminate|auto].
    + intros e J. destruct (D1 e J) as [K|(pid & K1 & K2)]; [auto|]. right. destruct ps as [|p0 r]; [destruct K1|]. exists t, (p0 :: r), pid. auto.
Qed.
Lemma then_all_tinv I T : forall s E, pinv s E I -> tinv s E I -> let '(s', ev) := then_all T s in tinv s' (E ++ ev) I /\ pinv s' (E ++ ev) I.
Proof.
  induction T as [|t T IH]; intros s E P Ti; cbn [then_all]; [rewrite app_nil_r; auto|]. pose proof (andthen_tinv t s E I P Ti) as H. destruct (andthen t s) as [s1 e1]. destruct H as [H1 H2]. specialize (IH s1 _ H2 H1). destruct (then_all T s1) as [s2 e2]. now rewrite app_assoc.
Qed.
Definition stops (E : list effect) : Prop := forall f pid ipc, In (Stop f pid ipc) E -> exists c, In (Spawn f c pid) E.
Definition done_input (i : input) : bool := match i with Connect _ _ _ | Dead _ => true | _ => false end.
Lemma completeI_snoc e I i : completeI e (I ++ [i]) <-> completeI e I \/ match e, i with Spawn f _ pid, Connect f' pid' _ => f = f' /\ pid = pid' | Spawn _ _ pid, Dead pid' | Stop _ pid _, Dead pid' => pid = pid' | _, _ => False end.
Proof.
  destruct e; cbn; try tauto.
  - split.
    + intros [(p & J)|J]; apply in_snoc in J as [J|J]; [left; left; eauto|subst i; right; auto|left; right; auto|subst i; right; auto].
    + intros [[(p & J)|J]|J]; [left; exists p; apply in_snoc; auto|right; apply in_snoc; auto|]. destruct i; try contradiction.
      * destruct J as [-> ->]. left. exists ipc. apply in_snoc. auto. * subst. right. apply in_snoc. auto.
  - rewrite in_snoc. split; intros [J|J]; auto; [subst i; auto|]. destruct i; try contradiction. subst. auto.
Qed.
Lemma inc_snoc t p E I i : inc t p E (I ++ [i]) <-> inc t p E I /\ match t, i with TAdd f _, Connect f' p' _ => ~ (f = f' /\ p = p') | TAdd _ _, Dead p' | TRemove _ _, Dead p' => p <> p' | _, _ => True end.
Proof.
  destruct t; cbn; try tauto.
  - split.
    + intros (A & B & C). split; [split; [auto|]; split|].
      * intros ipc J. apply (B ipc). apply in_snoc. auto. * intro J. apply C, in_snoc. auto.
      * destruct i; auto. -- intros [-> ->]. apply (B ipc), in_snoc. auto. -- intros ->. apply C, in_snoc. auto.
    + intros ((A & B & C) & D). split; [auto|]. split.
      * intros ipc J. apply in_snoc in J as [J|J]; [eapply B; eauto|]. subst i. apply D. auto. * intro J. apply in_snoc in J as [J|J]; [auto|]. subst i. now apply D.
  - split.
    + intros (A & B). split; [split; [auto|]|]. * intro J. apply B, in_snoc. auto. * destruct i; auto. intros ->. apply B, in_snoc. auto.
    + intros ((A & B) & D). split; [auto|]. intro J. apply in_snoc in J as [J|J]; [auto|]. subst i. now apply D.
Qed.
Lemma inc_more t p E E' I : inc t p E I -> inc t p (E ++ E') I.
Proof. destruct t; cbn; auto. - intros ((c & A) & B). split; [exists c; apply in_or_app; auto|auto]. - intros ((c & A) & B). split; [exists c; apply in_or_app; auto|auto]. Qed.
Definition still (e : effect) : Prop := forall I, completeI e I.
Lemma tinv_same s s' E ev I : s_active s' = s_active s -> s_tasks s' = s_tasks s -> (forall e, In e ev -> still e) -> tinv s E I -> tinv s' (E ++ ev) I.
Proof.
  intros X Y N [A B C]. split; rewrite ?X, ?Y; auto.
  - intros t ps J. destruct (B t ps J) as [B1 B2]. split; [auto|]. intros p K. apply inc_more. auto.
  - intros e J. apply in_app_iff in J as [J|J]; [auto|left; now apply N].
Qed.
Lemma tinv_input s E I i : done_input i = false -> tinv s E I -> tinv s E (I ++ [i]).
Proof.
  intros N [A B C]. split; auto.
  - intros t ps J. destruct (B t ps J) as [B1 B2]. split; [auto|]. intros p K. apply inc_snoc. split; [auto|]. destruct t, i; auto; discriminate.
  - intros e J. destruct (C e J) as [K|K]; [left; now apply completeI_more|auto].
Qed.
Lemma stops_quiet E ev : (forall f pid ipc, ~ In (Stop f pid ipc) ev) -> stops E -> stops (E ++ ev).
Proof. intros N H f pid ipc J. apply in_app_iff in J as [J|J]; [|exfalso; eapply N; eauto]. destruct (H _ _ _ J) as (c & K). exists c. apply in_or_app. auto. Qed.
Lemma still_quiet ev : (forall e, In e ev -> still e) -> forall f pid ipc, ~ In (Stop f pid ipc) ev.
Proof. intros H f pid ipc J. specialize (H _ J []). exact H. Qed.
Lemma einv_pinv s E I i : einv s E I -> stops E -> (match i with Connect f pid ipc => pid < s_next s | Dead pid => pid < 0 \/ In (Exit pid) I | _ => True end) -> pinv s E (I ++ [i]).
Proof.
  intros [A B U X K L T Q P] S Po. split; auto.
  - intros f c pid J. destruct (B _ _ _ J). auto.
  - intros f e J. destruct (L f e J) as [L1 L2]. split; [auto|]. intro Z. apply in_snoc in Z as [Z|Z]; [apply L2; now right|]. subst i. destruct Po as [Po|Po]; [destruct (B _ _ _ L1); lia|]. apply L2. now left.
  - intros p J. apply in_snoc in J as [J|J]; [apply X; now right|]. subst i. destruct Po as [Po|Po]; [lia|]. apply X. now left.
  - intros f p q J. apply in_snoc in J as [J|J]; [eauto|]. subst i. exact Po.
Qed.
Lemma plain_still e : quiet e -> (forall f c pid, e <> Spawn f c pid) -> (forall f pid ipc, e <> Stop f pid ipc) -> still e.
Proof. intros _ A B I. destruct e; cbn; auto; exfalso; [eapply A|eapply B]; eauto. Qed.
Lemma check_still s e : In e (snd (check s)) -> still e.
Proof. intros J I. apply check_answers in J as (l & x & _ & _ & ->). exact Logic.I. Qed.
Lemma send_still p x s e : still x -> In e (send p x s) -> still e.
Proof. unfold send. destruct (gone _ _); cbn; [tauto|]. intros H [<-|[]]. auto. Qed.
Lemma coordinated m i s E I : tinv s E I -> pinv s E (I ++ [i]) -> heard m (I ++ [i]) -> (forall t p ps, In p (handle t m ps) -> match t, i with TAdd f _, Connect f' p' _ => ~ (f = f' /\ p = p') | TAdd _ _, Dead p' | TRemove _ _, Dead p' => p <> p' | _, _ => True end) ->
  tinv (fst (coordinate m s)) (E ++ snd (coordinate m s)) (I ++ [i]) /\ stops (E ++ snd (coordinate m s)).
Proof.
  intros [A B C] P H X. pose proof (coordinate_tinv m s E (I ++ [i]) H P A) as K. destruct (coordinate m s) as [s' ev]. cbn [fst snd]. assert (tinv s' (E ++ ev) (I ++ [i]) /\ pinv s' (E ++ ev) (I ++ [i])) as [K1 K2].
  { apply K.
    - intros t ps J. destruct (B t ps J) as [B1 B2]. split; [auto|]. intros p L. apply inc_snoc. split; [apply B2; eapply handle_in; eauto|]. exact (X t p ps L).
    - intros e J. destruct (C e J) as [L|L]; [left; now apply completeI_more|auto]. }
  split; [auto|]. exact (p_stop _ _ _ K2).
Qed.
Lemma reach_tinv s h : reach s h -> tinv s (effects h) (inputs h) /\ stops (effects h).
Proof.
  induction 1 as [|s h i R [IH ST] Po]; [split; [split; cbn; auto; try discriminate; intros e []|intros f pid ipc []]|]. pose proof (reach_einv s h R) as EI. pose proof (fun J => einv_pinv s _ _ i EI ST J) as PI. rewrite effects_snoc, inputs_snoc.
  assert (SIMPLE : done_input i = false -> s_active (fst (step i s)) = s_active s -> s_tasks (fst (step i s)) = s_tasks s -> (forall e, In e (snd (step i s)) -> still e) -> tinv (fst (step i s)) (effects h ++ snd (step i s)) (inputs h ++ [i]) /\ stops (effects h ++ snd (step i s))).
  { intros A B C D. split; [apply (tinv_same s); auto; now apply tinv_input|]. apply stops_quiet; auto. now apply still_quiet. }
  destruct i as [m|l|p k|pid ipc n add rem|ipc n|ipc|k|p k|p k int names|f pid ipc|f pid qs|pid|pid|ipc|p k m| | |ipc].
  - cbn [step]. unfold conform. pose proof (then_all_tinv (inputs h ++ [Begin m]) (tasks_of (Model [] []) m) s (effects h) (PI Logic.I) (tinv_input s _ _ (Begin m) eq_refl IH)) as H. destruct (then_all _ s) as [s' ev]. destruct H as [H1 H2]. split; [auto|]. exact (p_stop _ _ _ H2).
  - apply SIMPLE; auto; cbn [step].
    + destruct (lookup_cases l s) as [(-> & _)|[(x & -> & _)|(-> & _)]]; auto.
    + destruct (lookup_cases l s) as [(-> & _)|[(x & -> & _)|(-> & _)]]; auto.
    + intros e J I. destruct (lookup_cases l s) as [(_ & V & _)|[(x & _ & V & _)|(_ & _ & _ & [(_ & V)|(_ & _ & V)])]]; rewrite V in J.
      * apply absent_in in J as [_ ->]. exact Logic.I. * apply send_still in J; [apply J|]. intro; exact Logic.I. * destruct J as [<-|[]]. exact Logic.I. * destruct J.
  - apply SIMPLE; auto; cbn [step]; unfold discard_lookup.
    + destruct (existsb _ _); auto. + destruct (existsb _ _); auto. + intros e J I. destruct (existsb _ _); (apply send_still in J; [apply J|intro; exact Logic.I]).
  - apply SIMPLE; auto; cbn [step].
    + cbn. unfold advertise. assert (A : forall l t, s_active (fold_left (add_remote pid ipc n) l t) = s_active t) by (induction l; intro t; cbn; auto; now rewrite IHl). assert (B : forall l t, s_active (fold_left (remove_remote ipc) l t) = s_active t) by (induction l; intro t; cbn; auto; now rewrite IHl). rewrite B, A. destruct (existsb _ _); auto.
    + cbn. unfold advertise. assert (A : forall l t, s_tasks (fold_left (add_remote pid ipc n) l t) = s_tasks t) by (induction l; intro t; cbn; auto; now rewrite IHl). assert (B : forall l t, s_tasks (fold_left (remove_remote ipc) l t) = s_tasks t) by (induction l; intro t; cbn; auto; now rewrite IHl). rewrite B, A. destruct (existsb _ _); auto.
    + intros e J. eapply check_still; eauto.
  - apply SIMPLE; auto; cbn [step].
    + cbn. unfold order_of. destruct (existsb _ _); auto. + cbn. unfold order_of. destruct (existsb _ _); auto. + intros e J. eapply check_still; eauto.
  - apply SIMPLE; auto. intros e J. eapply check_still; eauto.
  - apply SIMPLE; auto; rewrite step_discovered, ?bind_fst, ?bind_snd.
    + destruct (discovered_split k (fst (check s))) as [(l & _ & _ & _ & ->)|[_ ->]]; auto.
    + destruct (discovered_split k (fst (check s))) as [(l & _ & _ & _ & ->)|[_ ->]]; auto.
    + intros e J. apply in_app_iff in J as [J|J]; [eapply check_still; eauto|]. destruct (discovered_split k (fst (check s))) as [(l & _ & _ & _ & X)|[_ X]]; rewrite X in J; [|destruct J]. cbn [snd] in J. apply absent_in in J as [_ ->]. intro; exact Logic.I.
  - apply SIMPLE; auto. intros e J. apply send_still in J; [auto|]. intro; exact Logic.I.
  - apply SIMPLE; auto. intros e J. apply send_still in J; [auto|]. intro; exact Logic.I.
  - cbn in Po. destruct Po as (_ & (c & Sp) & NC & _). assert (LT : pid < s_next s) by (destruct (e_fresh _ _ _ EI _ _ _ Sp); auto). specialize (PI LT). cbn [step]. rewrite bind_fst, bind_snd, app_assoc.
    destruct (coordinated (MConnect f pid) (Connect f pid ipc) s _ _ IH PI) as [H1 H2].
    + exists ipc. apply in_snoc. auto.
    + intros t p ps J. destruct t; auto. intros [-> ->]. cbn in J. rewrite eqb_reflx in J. apply in_erase in J. tauto.
    + split.
      * eapply tinv_same; [| | |exact H1]; unfold connect; destruct (find_entity _ _) as [en|]; cbn; try (destruct f; reflexivity); [|intros x []]. intros x [<-|[]]. intro; exact Logic.I.
      * apply stops_quiet; auto. unfold connect. destruct (find_entity _ _); cbn; [|tauto]. intros g q q' [J|[]]. discriminate.
  - specialize (PI Logic.I). destruct f; cbn [step]; rewrite bind_fst, bind_snd.
    + destruct (coordinated (MConfigured true pid) (Configured true pid qs) s _ _ IH PI Logic.I) as [H1 H2]; [intros t p ps J; destruct t; auto|]. cbn [fst snd]. rewrite app_nil_r. split; [|auto]. rewrite <- (app_nil_r (effects h ++ _)). eapply tinv_same; [| | |exact H1]; auto. intros e [].
    + destruct (coordinated (MConfigured false pid) (Configured false pid qs) s _ _ IH PI Logic.I) as [H1 H2]; [intros t p ps J; destruct t; auto|]. rewrite app_assoc. set (s1 := fst (coordinate _ s)) in *.
      assert (A : s_active (update_group pid qs s1) = s_active s1 /\ s_tasks (update_group pid qs s1) = s_tasks s1).
      { unfold update_group. destruct (find_entity _ _) as [e|]; [|auto]. assert (A : forall l t, s_active (fold_left (add_local e) l t) = s_active t /\ s_tasks (fold_left (add_local e) l t) = s_tasks t) by (induction l as [|q l IHl]; intro t; cbn; auto; destruct (IHl (add_local e t q)) as [-> ->]; auto).
        destruct (A qs (with_entities false (on_entity pid (set_life 3) (s_groups (drop_pid pid s1))) (drop_pid pid s1))) as [-> ->]. auto. }
      destruct A as [A1 A2]. split; [eapply tinv_same; [| | |exact H1]; auto; intros e J; eapply check_still; eauto|]. apply stops_quiet; auto. apply still_quiet. intros e J. eapply check_still; eauto.
  - apply SIMPLE; auto. intros e [<-|[]]. intro; exact Logic.I.
  - cbn in Po. destruct Po as (_ & Po). specialize (PI Po). cbn [step]. rewrite bind_fst, bind_snd. cbn [fst snd]. rewrite app_nil_r.
    destruct (coordinated (MDead pid) (Dead pid) s _ _ IH PI) as [H1 H2].
    + apply in_snoc. auto.
    + intros t p ps J. destruct t; auto; cbn in J; apply in_erase in J; tauto.
    + split; [|auto]. rewrite <- (app_nil_r (effects h ++ _)). eapply tinv_same; [| | |exact H1]; auto. intros e [].
  - apply SIMPLE; auto. intros e [].
  - cbn [step]. rewrite bind_fst, bind_snd, app_assoc. unfold conform. pose proof (then_all_tinv (inputs h ++ [Update p k m]) (tasks_of (current s) m) s (effects h) (PI Logic.I) (tinv_input s _ _ (Update p k m) eq_refl IH)) as H. destruct (then_all _ s) as [s1 e1]. destruct H as [H1 H2]. cbn [fst snd].
    pose proof (andthen_tinv (TTell p k) s1 _ _ H2 H1) as H. destruct (andthen _ s1) as [s2 e2]. destruct H as [H3 H4]. cbn [fst snd]. split; [auto|]. exact (p_stop _ _ _ H4).
  - cbn [step]. rewrite bind_fst, bind_snd. unfold conform. set (s1 := fst (discard_all (with_run Down s))). set (ev1 := snd (discard_all (with_run Down s))).
    assert (S1 : forall e, In e ev1 -> still e) by (intros e J; unfold ev1 in J; cbn in J; apply in_flat_map in J as (l & _ & J); apply absent_in in J as [_ ->]; intro; exact Logic.I).
    assert (T1 : tinv s1 (effects h ++ ev1) (inputs h ++ [Shutdown])) by (apply (tinv_same s); auto; now apply tinv_input).
    assert (EI1 : einv s1 (effects h ++ ev1) (inputs h)). { apply (einv_same s); auto. intros e J f c pid ->. apply (S1 _ J []) || (specialize (S1 _ J []); destruct S1 as [(x & [])|[]]). }
    assert (ST1 : stops (effects h ++ ev1)) by (apply stops_quiet; auto; now apply still_quiet).
    pose proof (then_all_tinv (inputs h ++ [Shutdown]) (tasks_of (current s1) (Model [] [])) s1 _ (einv_pinv s1 _ _ Shutdown EI1 ST1 Logic.I) T1) as H. destruct (then_all _ s1) as [s2 e2]. destruct H as [H1 H2]. cbn [fst snd]. rewrite app_assoc. split; [auto|]. exact (p_stop _ _ _ H2).
  - apply SIMPLE; auto; cbn [step].
    + destruct (s_run s); auto. destruct (ready s); auto. + destruct (s_run s); auto. destruct (ready s); auto. + intros e J. destruct (s_run s); [destruct (ready s)| |]; cbn in J; try tauto. destruct J as [<-|[]]. intro; exact Logic.I.
  - apply SIMPLE; auto. intros e [].
Qed.
