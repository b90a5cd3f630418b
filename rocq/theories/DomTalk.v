(* The domain manager: the singletons, and the answers to those that connect. *)
From Coq Require Import ZArith List Bool Lia.
From Verif Require Import DomModel DomSpec DomBoot DomFrame DomMarks DomStep DomSeq.
Import ListNotations.
Local Open Scope Z_scope.

Definition talk (e : effect) : bool := match e with Answer _ _ _ | Found _ _ _ _ | Kill _ => true | _ => false end.
(* the work of the tasks: the books aren't changed, and no answers are given *)
Record still (d d' : dom) : Prop := Still {
  t_sing : d_sing d' = d_sing d; t_grand : d_grand d' = d_grand d; t_look : d_look d' = d_look d; t_white : d_white d' = d_white d;
  t_low : rank (d_level d') <= rank Running <-> rank (d_level d) <= rank Running; t_out : filter talk (d_out d') = filter talk (d_out d) }.
Lemma still_refl d : still d d. Proof. constructor; auto. tauto. Qed.
Lemma still_trans a b c : still a b -> still b c -> still a c.
Proof. intros [] []. constructor; try congruence. tauto. Qed.
Lemma still_say d x : (forall e, In e x -> talk e = false) -> still d (say x d).
Proof.
  intro H. constructor; auto; [tauto|]. cbn. rewrite filter_app. assert (E : filter talk x = []) by (induction x as [|e x IH]; [auto|]; cbn; rewrite (H e (or_introl eq_refl)); apply IH; intros; apply H; cbn; auto).
  rewrite E. apply app_nil_r.
Qed.
Lemma still_say1 e d : talk e = false -> still d (say [e] d).
Proof. intro H. apply still_say. intros f [<-|[]]. auto. Qed.
Lemma still_same d d' : d_sing d' = d_sing d -> d_grand d' = d_grand d -> d_look d' = d_look d -> d_white d' = d_white d -> d_level d' = d_level d -> d_out d' = d_out d -> still d d'.
Proof. intros. constructor; auto; [|congruence]. rewrite H3. tauto. Qed.
Lemma spawns_talk id l : forall o e, In e (snd (fst (spawns id l o))) -> talk e = false.
Proof.
  induction l as [|i r IH]; intros o e; cbn [spawns]; [contradiction|]. destruct o as [|[p|] o'].
  - specialize (IH (tl []) e). destruct (spawns id r (tl [])) as [[a b] c]. cbn in *. intros [<-|J]; auto.
  - specialize (IH o' e). destruct (spawns id r o') as [[a b] c]. cbn in *. intros [<-|J]; auto.
  - specialize (IH o' e). cbn [tl]. destruct (spawns id r o') as [[a b] c]. cbn in *. intros [<-|J]; auto.
Qed.
Lemma still_in e d : still d (scale_in e d).
Proof.
  unfold scale_in. destruct (subrange _ _) as [[a r] c]. destruct r as [|x r]; [apply still_refl|]. destruct (e_kind e).
  - unfold shut. destruct (singleton sm d); [now apply still_say1|apply still_same; auto].
  - apply still_say. intros f J. apply in_map_iff in J as (y & <- & _). auto.
Qed.
Lemma still_out e d : still d (scale_out e d).
Proof.
  unfold scale_out. destruct (match e_kind e with Server => e_on e | Exec => true end); [|apply still_refl]. destruct (subrange _ _) as [[a r] c]. destruct r as [|x r]; [apply still_refl|].
  pose proof (spawns_talk (e_id e) (x :: r) (d_orc d)) as T. destruct (spawns (e_id e) (x :: r) (d_orc d)) as [[r' ev] o]. cbn [fst snd] in T.
  apply (still_trans _ (say ev (put (with_inst (a ++ r' ++ c) e) d))); [|apply still_same; reflexivity]. apply (still_trans _ (put (with_inst (a ++ r' ++ c) e) d)); [apply still_same; reflexivity|apply still_say; exact T].
Qed.
Lemma still_instances e d : still d (instances e d).
Proof. unfold instances. eapply still_trans; [apply still_in|apply still_out]. Qed.
Lemma still_id d id : still d (instances_id d id).
Proof. unfold instances_id. destruct (entity id d); [apply still_instances|apply still_refl]. Qed.
Lemma still_fold ids : forall d, still d (fold_left instances_id ids d).
Proof. induction ids as [|i r IH]; intro d; cbn; [apply still_refl|]. eapply still_trans; [apply still_id|apply IH]. Qed.
Lemma still_start t d : still d (fst (start t d)).
Proof.
  destruct t as [ids| |w]; cbn [start fst].
  - assert (S : still d (fold_left instances_id ids (say [Begun ids] d))) by (apply (still_trans _ (say [Begun ids] d)); [now apply still_say1|apply still_fold]).
    destruct (group_done ids _); cbn [fst]; [|auto]. eapply still_trans; [apply S|now apply still_say1].
  - apply (still_trans _ (set_level Running d)); [|now apply still_say1]. constructor; auto. cbn. destruct (d_level d); cbn; lia.
  - now apply still_say1.
Qed.
Lemma still_next l : forall d, still d (next l d).
Proof.
  induction l as [|t r IH]; intro d; cbn [next]; [apply still_same; auto|]. pose proof (still_start t d) as S. destruct (start t d) as [d1 a]. cbn [fst] in S. destruct a.
  - eapply still_trans; [exact S|apply IH].
  - eapply still_trans; [exact S|apply still_same; auto].
Qed.
Lemma still_dispatch d : still d (dispatch d).
Proof.
  unfold dispatch. destruct (d_tasks d) as [|[ids| |w] r]; try apply still_refl. destruct (group_done ids d); [|apply still_refl]. apply (still_trans _ (say [Ended ids] d)); [now apply still_say1|apply still_next].
Qed.
Lemma still_then d t : still d (andthen d t).
Proof.
  unfold andthen. destruct (d_tasks d); [|apply still_same; auto]. pose proof (still_start t d) as S. destruct (start t d) as [d1 a]. cbn [fst] in S. destruct a; [auto|]. eapply still_trans; [exact S|apply still_same; auto].
Qed.
Lemma still_thens l : forall d, still d (fold_left andthen l d).
Proof. induction l as [|t r IH]; intro d; cbn; [apply still_refl|]. eapply still_trans; [apply still_then|apply IH]. Qed.
Lemma still_boot d : still d (boot d).
Proof. unfold boot. eapply still_trans; [apply still_thens|apply still_then]. Qed.
(* to shut down: the runlevel is another *)
Lemma shutdown_still d : d_sing (shutdown d) = d_sing d /\ d_grand (shutdown d) = d_grand d /\ d_look (shutdown d) = d_look d /\ d_white (shutdown d) = d_white d /\ filter talk (d_out (shutdown d)) = filter talk (d_out d).
Proof.
  unfold shutdown. cbv zeta. match goal with |- context [andthen (fold_left andthen ?l ?x) ?t] => pose proof (still_trans _ _ _ (still_thens l x) (still_then (fold_left andthen l x) t)) as S end.
  destruct S as [S1 S2 S3 S4 _ S6]. rewrite S1, S2, S3, S4, S6. cbn. auto.
Qed.
Lemma still_scale_all l es : forall d d', scale_all l es d = Some d' -> still d d'.
Proof.
  induction es as [|e r IH]; intros d d'; cbn [scale_all]; [intro H; injection H as <-; apply still_refl|]. destruct (find _ l) as [x|]; [|apply IH]. destruct (scale (snd x) e) as [e'|]; [|discriminate].
  intro H. apply IH in H. eapply still_trans; [|exact H]. apply still_same; auto.
Qed.
Lemma still_aliases l d d' : scale_aliases l d = Some d' -> still d d'.
Proof.
  unfold scale_aliases. destruct (scale_all _ _ d) as [d1|] eqn:E; [|discriminate]. intro H. injection H as <-. eapply still_trans; [eapply still_scale_all, E|]. eapply still_trans; apply still_then.
Qed.
Lemma still_put e d : still d (put e d). Proof. apply still_same; auto. Qed.
(* what an exit does *)
Definition gone_sing (p : Z) (l : list (Z * (Z * Z))) := remove_first (fun x => fst (snd x) =? p) l.
Lemma remove_books p d : let d' := fst (remove p d) in d_sing d' = gone_sing p (d_sing d) /\ d_look d' = filter (fun l => negb (l_pid l =? p)) (d_look d) /\ d_out d' = d_out d /\ d_level d' = d_level d.
Proof.
  unfold remove. cbv zeta. destruct (server_of p _) as [e|].
  - destruct (e_restart e && _); cbn [fst]; [auto|]. destruct (exec_of p _) as [x|]; [|cbn; auto]. destruct (e_restart x && _); cbn; auto.
  - destruct (exec_of p _) as [x|]; [|cbn; auto]. destruct (e_restart x && _); cbn; auto.
Qed.
Lemma exit_books p d : d_sing (exit p d) = gone_sing p (d_sing d) /\ d_look (exit p d) = filter (fun l => negb (l_pid l =? p)) (d_look d) /\ filter talk (d_out (exit p d)) = filter talk (d_out d).
Proof.
  unfold exit. pose proof (remove_books p d) as B. destruct (remove p d) as [d1 r]. cbn in B. destruct B as (B1 & B2 & B3 & B4).
  assert (S : still d1 (dispatch (match r with Some id => instances_id d1 id | None => d1 end))) by (eapply still_trans; [|apply still_dispatch]; destruct r; [apply still_id|apply still_refl]).
  destruct S as [S1 S2 S3 S4 S5 S6]. rewrite S1, S3, S6, B1, B2, B3. auto.
Qed.
(* what the answers to lookups leave *)
Lemma answer_books l d : let d' := fst (answer l d) in d_sing d' = d_sing d /\ d_level d' = d_level d /\ d_look d' = d_look d /\ d_ents d' = d_ents d /\ d_grand d' = d_grand d /\ (exists x, d_out d' = d_out d ++ x /\ forall e, In e x -> exists a b c e', e = Found a b c e').
Proof.
  assert (G : forall a b c e, exists x, d_out (say [Found a b c e] d) = d_out d ++ x /\ forall f, In f x -> exists a b c e', f = Found a b c e') by (intros; eexists; split; [reflexivity|]; intros f [<-|[]]; eauto).
  assert (G0 : exists x, d_out d = d_out d ++ x /\ forall f, In f x -> exists a b c e', f = Found a b c e') by (exists []; rewrite app_nil_r; split; [auto|contradiction]).
  unfold answer. destruct (l_id l) as [id|].
  - destruct (singleton id d); [cbn [fst]; auto 10|]. destruct (direct l d); cbn [fst]; auto 10.
  - destruct (l_proc l) as [p|]; [|cbn [fst]; auto 10]. cbv zeta. destruct ((_ && _) || _); cbn [fst]; auto 10.
Qed.
Lemma answer_all_books ls : forall d, let d' := fst (answer_all ls d) in d_sing d' = d_sing d /\ d_level d' = d_level d /\ d_look d' = d_look d /\ d_ents d' = d_ents d /\ d_grand d' = d_grand d /\ (exists x, d_out d' = d_out d ++ x /\ forall e, In e x -> exists a b c e', e = Found a b c e').
Proof.
  induction ls as [|l r IH]; intro d; cbn [answer_all]; [cbn; repeat (split; [reflexivity|]); exists []; rewrite app_nil_r; split; [auto|contradiction]|].
  pose proof (answer_books l d) as A. destruct (answer l d) as [d1 b]. cbn [fst] in A. destruct A as (A1 & A2 & A3 & A4 & A5 & x & A6 & A7). specialize (IH d1). destruct (answer_all r d1) as [d2 k]. cbn [fst] in *.
  destruct IH as (B1 & B2 & B3 & B4 & B5 & y & B6 & B7). repeat (split; [congruence|]). exists (x ++ y). split; [rewrite B6, A6; now rewrite app_assoc|]. intros e J. apply in_app_or in J as [J|J]; auto.
Qed.
Definition ansb (e : effect) : bool := match e with Answer _ _ _ => true | _ => false end.
Lemma ansb_talk l : filter ansb l = filter ansb (filter talk l).
Proof. induction l as [|e l IH]; [auto|]. destruct e; cbn; auto. now rewrite IH. Qed.
Lemma still_ans d d' : still d d' -> filter ansb (d_out d') = filter ansb (d_out d).
Proof. intro S. rewrite ansb_talk, (t_out _ _ S), <- ansb_talk. auto. Qed.
Lemma no_ans x : (forall e, In e x -> exists a b c e', e = Found a b c e') -> filter ansb x = [].
Proof. induction x as [|e x IH]; intro H; [auto|]. destruct (H e (or_introl eq_refl)) as (a & b & c & e' & ->). cbn. apply IH. intros; apply H; cbn; auto. Qed.
Definition join_first (c : conn) (d : dom) : dom := match server_of (c_pid c) d with Some e => put (ent_conn (c_pid c) (c_ipc c) e) d | None => set_grand (d_grand d ++ [(c_pid c, c_ipc c)]) d end.
Lemma join_pre_eq c d : join_pre c d = let (d2, k) := answer_all (d_look (join_first c d)) (join_first c d) in set_look k d2.
Proof. reflexivity. Qed.
Lemma join_first_books c d : d_sing (join_first c d) = d_sing d /\ d_level (join_first c d) = d_level d /\ d_look (join_first c d) = d_look d /\ d_out (join_first c d) = d_out d.
Proof. unfold join_first. destruct (server_of _ d); auto. Qed.
Lemma join_books c d : d_sing (join c d) = d_sing d /\ filter ansb (d_out (join c d)) = filter ansb (d_out d).
Proof.
  rewrite join_eq. pose proof (still_dispatch (join_pre c d)) as S. rewrite (t_sing _ _ S), (still_ans _ _ S), join_pre_eq. destruct (join_first_books c d) as (J1 & _ & _ & J4).
  pose proof (answer_all_books (d_look (join_first c d)) (join_first c d)) as A. destruct (answer_all _ _) as [d2 k]. cbn [fst] in A. destruct A as (A1 & _ & _ & _ & _ & x & A6 & A7). cbn. rewrite A1, J1, A6, filter_app, (no_ans x A7), J4, app_nil_r. auto.
Qed.

(* ---- a step ---- *)
Definition sing_after (i : input) (d : dom) : list (Z * (Z * Z)) :=
  match i with
  | Begin _ _ _ _ => []
  | Exit p => gone_sing p (d_sing d)
  | Connect c => if rank Running <? rank (d_level d) then d_sing d else match c_sing c with Some id => match singleton id d with Some _ => d_sing d | None => d_sing d ++ [(id, (c_pid c, c_ipc c))] end | None => d_sing d end
  | _ => d_sing d
  end.
Definition ans_after (i : input) (d : dom) : list effect :=
  match i with
  | Connect c => [Answer (c_pid c) (c_ipc c) (if rank Running <? rank (d_level d) then false else match c_sing c with Some id => match singleton id d with Some _ => false | None => true end | None => true end)]
  | _ => []
  end.
Lemma step_sing o i d d' ev : step o i d = Some (d', ev) -> d_sing d' = sing_after i d /\ filter ansb ev = ans_after i d.
Proof.
  intro H. unfold step in H. set (d0 := set_out [] (set_orc o d)) in *. destruct (handle i d0) as [d1|] eqn:E; [|discriminate]. injection H as <- <-. cbn [d_sing set_out].
  destruct i; cbn [handle] in E; try (injection E as <-); cbn [sing_after ans_after].
  - pose proof (still_boot (Dom Startup gs mgr es [] [] [] [pid] [] [] (d_orc d0) [])) as S. split; [apply (t_sing _ _ S)|apply (still_ans _ _ S)].
  - destruct (exit_books pid d0) as (A & _ & B). rewrite A, ansb_talk, B. auto.
  - unfold own. destruct (d_self d0) as [|[a l|l] r]; [auto| |].
    + pose proof (still_dispatch (set_self r d0)) as S. rewrite (t_sing _ _ S), (still_ans _ _ S). auto.
    + unfold prepared. cbn. split; [auto|]. clear. induction l as [|[p [q|]] l IH]; cbn; auto.
  - unfold connect. change (d_level d0) with (d_level d). destruct (rank Running <? rank (d_level d)); [auto|]. change (singleton) with (fun id d => option_map snd (find (fun x => fst x =? id) (d_sing d))). cbv beta. change (d_sing d0) with (d_sing d).
    destruct (c_sing c) as [id|].
    + destruct (option_map snd (find (fun x => fst x =? id) (d_sing d))) as [h|].
      * destruct (server_of (c_pid c) d0); [auto|]. destruct (exec_of (c_pid c) d0); auto.
      * match goal with |- context [join c ?x] => destruct (join_books c x) as [A B]; cbn [say d_sing set_out d_out]; rewrite A, filter_app, B end. destruct (c_white c); auto.
    + match goal with |- context [join c ?x] => destruct (join_books c x) as [A B]; cbn [say d_sing set_out d_out]; rewrite A, filter_app, B end. destruct (c_white c); auto.
  - unfold lookup. pose proof (answer_books l d0) as A. destruct (answer l d0) as [d2 b]. cbn [fst] in A. destruct A as (A1 & _ & _ & _ & _ & x & A6 & A7).
    assert (X : filter ansb (d_out d2) = []) by (rewrite A6, filter_app, (no_ans x A7); auto). destruct b; cbn; auto.
  - unfold prepared. cbn. split; [auto|]. clear. induction l as [|[p [q|]] l IH]; cbn; auto.
  - destruct (shutdown_still d0) as (A & _ & _ & _ & B). rewrite A, ansb_talk, B. auto.
  - change (d_level d0) with (d_level d). destruct (d_level d); auto. destruct (shutdown_still (set_level Error d0)) as (A & _ & _ & _ & B). rewrite A, ansb_talk, B. auto.
  - apply still_aliases in E. rewrite (t_sing _ _ E), (still_ans _ _ E). auto.
  - unfold assassinate. destruct (severe && _); auto.
Qed.
