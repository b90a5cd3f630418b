(* The domain manager: the processes that are left alone, and those that are killed. *)
From Coq Require Import ZArith List Bool Lia.
From Verif Require Import DomModel DomSpec DomBoot DomFrame DomMarks DomStep DomSeq DomTalk DomSing DomLook.
Import ListNotations.
Local Open Scope Z_scope.

Definition white_after (i : input) (d : dom) : list Z :=
  match i with
  | Begin p _ _ _ => [p]
  | Exit p => filter (fun q => negb (q =? p)) (d_white d)
  | Connect c => if rank Running <? rank (d_level d) then d_white d else match c_sing c with Some id => match singleton id d with Some _ => d_white d | None => if c_white c then d_white d ++ [c_pid c] else d_white d end | None => if c_white c then d_white d ++ [c_pid c] else d_white d end
  | _ => d_white d
  end.
Definition kills (i : input) (d : dom) : list effect := match i with Assassinate p b => if b && negb (existsb (Z.eqb p) (d_white d)) then [Kill p] else [] | _ => [] end.
Definition killb (e : effect) : bool := match e with Kill _ => true | _ => false end.
Lemma killb_talk l : filter killb l = filter killb (filter talk l).
Proof. induction l as [|e l IH]; [auto|]. destruct e; cbn; auto. now rewrite IH. Qed.
Lemma still_kill d d' : still d d' -> filter killb (d_out d') = filter killb (d_out d).
Proof. intro S. rewrite killb_talk, (t_out _ _ S), <- killb_talk. auto. Qed.
Lemma no_kill x : (forall e, In e x -> exists a b c e', e = Found a b c e') -> filter killb x = [].
Proof. induction x as [|e x IH]; intro H; [auto|]. destruct (H e (or_introl eq_refl)) as (a & b & c & e' & ->). cbn. apply IH. intros; apply H; cbn; auto. Qed.
Lemma remove_white p d : d_white (fst (remove p d)) = filter (fun q => negb (q =? p)) (d_white d).
Proof.
  unfold remove. cbv zeta. destruct (server_of p _) as [e|].
  - destruct (e_restart e && _); cbn [fst]; [auto|]. destruct (exec_of p _) as [x|]; [|cbn; auto]. destruct (e_restart x && _); cbn; auto.
  - destruct (exec_of p _) as [x|]; [|cbn; auto]. destruct (e_restart x && _); cbn; auto.
Qed.
Lemma exit_white p d : d_white (exit p d) = filter (fun q => negb (q =? p)) (d_white d).
Proof.
  unfold exit. pose proof (remove_white p d) as B. destruct (remove p d) as [d1 r]. cbn [fst] in B.
  assert (S : still d1 (dispatch (match r with Some id => instances_id d1 id | None => d1 end))) by (eapply still_trans; [|apply still_dispatch]; destruct r; [apply still_id|apply still_refl]).
  now rewrite (t_white _ _ S), B.
Qed.
Lemma answer_white l d : d_white (fst (answer l d)) = d_white d.
Proof. unfold answer. destruct (l_id l) as [id|]; [destruct (singleton id d); [auto|]; destruct (direct l d); auto|]. destruct (l_proc l) as [p|]; [|auto]. cbv zeta. destruct ((_ && _) || _); auto. Qed.
Lemma answer_all_white ls : forall d, d_white (fst (answer_all ls d)) = d_white d.
Proof. induction ls as [|l r IH]; intro d; cbn [answer_all]; [auto|]. pose proof (answer_white l d) as A. destruct (answer l d) as [d1 b]. cbn [fst] in A. specialize (IH d1). destruct (answer_all r d1) as [d2 k]. cbn [fst] in *. congruence. Qed.
Lemma join_white c d : d_white (join c d) = d_white d /\ filter killb (d_out (join c d)) = filter killb (d_out d).
Proof.
  rewrite join_eq. pose proof (still_dispatch (join_pre c d)) as S. rewrite (t_white _ _ S), (still_kill _ _ S), join_pre_eq. assert (J1 : d_white (join_first c d) = d_white d) by (unfold join_first; destruct (server_of _ d); auto).
  destruct (join_first_books c d) as (_ & _ & _ & J4). pose proof (answer_all_white (d_look (join_first c d)) (join_first c d)) as W.
  pose proof (answer_all_books (d_look (join_first c d)) (join_first c d)) as A. destruct (answer_all _ _) as [d2 k]. cbn [fst] in *. destruct A as (_ & _ & _ & _ & _ & x & A6 & A7). cbn. rewrite W, J1, A6, filter_app, (no_kill x A7), J4, app_nil_r. auto.
Qed.
Lemma step_white o i d d' ev : step o i d = Some (d', ev) -> d_white d' = white_after i d /\ filter killb ev = kills i d.
Proof.
  intro H. unfold step in H. set (d0 := set_out [] (set_orc o d)) in *. destruct (handle i d0) as [d1|] eqn:E; [|discriminate]. injection H as <- <-. cbn [d_white set_out].
  destruct i; cbn [handle] in E; try (injection E as <-); cbn [white_after kills].
  - match goal with |- context [boot ?x] => pose proof (still_boot x) as S end. split; [apply (t_white _ _ S)|apply (still_kill _ _ S)].
  - destruct (exit_books pid d0) as (_ & _ & B). rewrite exit_white, killb_talk, B. auto.
  - unfold own. destruct (d_self d0) as [|[a l|l] r]; [auto| |].
    + pose proof (still_dispatch (set_self r d0)) as S. rewrite (t_white _ _ S), (still_kill _ _ S). auto.
    + unfold prepared. cbn. split; [auto|]. clear. induction l as [|[p [q|]] l IH]; cbn; auto.
  - unfold connect. change (d_level d0) with (d_level d). destruct (rank Running <? rank (d_level d)); [auto|]. change (singleton) with (fun id d => option_map snd (find (fun x => fst x =? id) (d_sing d))). cbv beta. change (d_sing d0) with (d_sing d).
    destruct (c_sing c) as [id|].
    + destruct (option_map snd (find (fun x => fst x =? id) (d_sing d))) as [h|].
      * destruct (server_of (c_pid c) d0); [auto|]. destruct (exec_of (c_pid c) d0); auto.
      * match goal with |- context [join c ?x] => destruct (join_white c x) as [A B]; cbn [say d_white set_out d_out]; rewrite A, filter_app, B end. destruct (c_white c); auto.
    + match goal with |- context [join c ?x] => destruct (join_white c x) as [A B]; cbn [say d_white set_out d_out]; rewrite A, filter_app, B end. destruct (c_white c); auto.
  - unfold lookup. pose proof (answer_books l d0) as A. pose proof (answer_white l d0) as W. destruct (answer l d0) as [d2 b]. cbn [fst] in A, W. destruct A as (_ & _ & _ & _ & _ & x & A6 & A7).
    assert (X : filter killb (d_out d2) = []) by (rewrite A6, filter_app, (no_kill x A7); auto). destruct b; cbn; auto.
  - unfold prepared. cbn. split; [auto|]. clear. induction l as [|[p [q|]] l IH]; cbn; auto.
  - destruct (shutdown_still d0) as (_ & _ & _ & A & B). rewrite A, killb_talk, B. auto.
  - change (d_level d0) with (d_level d). destruct (d_level d); auto. destruct (shutdown_still (set_level Error d0)) as (_ & _ & _ & A & B). rewrite A, killb_talk, B. auto.
  - apply still_aliases in E. rewrite (t_white _ _ E), (still_kill _ _ E). auto.
  - unfold assassinate. change (d_white d0) with (d_white d). destruct (severe && _); auto.
Qed.
Lemma white_inv p h i ev : white p (h ++ [(i, ev)]) -> (exists gs m es, i = Begin p gs m es) \/ (exists c q, i = Connect c /\ c_pid c = p /\ c_white c = true /\ In (Answer p q true) ev) \/ (white p h /\ i <> Exit p).
Proof.
  intro H. remember (h ++ [(i, ev)]) as x eqn:E. destruct H as [h' ev' gs m es|h' c ev' q A B C|h' i' ev' H N]; apply app_inj_tail in E as [-> E]; injection E as <- <-; [left; eauto|right; left; exists c, q; auto|right; right; auto].
Qed.
Lemma white_nil p : ~ white p [].
Proof. intro H. remember [] as x eqn:E. destruct H as [h|h|h]; destruct h; discriminate. Qed.
Lemma white_list d h p : reach d h -> white p h <-> In p (d_white d).
Proof.
  intro R. induction R as [|d h o i d' ev R IH P S]; [split; [intro K; now apply white_nil in K|contradiction]|]. pose proof (step_white _ _ _ _ _ S) as [A _]. pose proof (step_sing _ _ _ _ _ S) as [_ B]. rewrite A.
  assert (NB : (forall p gs m es, i <> Begin p gs m es) -> (forall c, i <> Connect c) -> white p (h ++ [(i, ev)]) <-> white p h /\ i <> Exit p).
  { intros NB NC. split; [|intros [K E]; now apply white_still]. intro K. apply white_inv in K as [(gs & m & es & E)|[(c & q & E & _)|K]]; [now apply NB in E|now apply NC in E|auto]. }
  destruct i; cbn [white_after] in *; try (rewrite NB; [|congruence|congruence]; rewrite IH; split; [tauto|intro; split; [auto|discriminate]]).
  - split; [|intros [<-|[]]; apply white_self]. intro K. apply white_inv in K as [(gs' & m & es' & E)|[(c & q & E & _)|[K _]]]; [injection E as <-; left; auto|discriminate|]. destruct P as [[-> _] _]. now apply white_nil in K.
  - rewrite NB by discriminate. rewrite filter_In, IH, negb_true_iff, Z.eqb_neq. split; intros [X Y]; (split; [auto|congruence]).
  - cbn [ans_after] in B. assert (O : forall ok, filter ansb ev = [Answer (c_pid c) (c_ipc c) ok] -> white p (h ++ [(Connect c, ev)]) <-> In p (d_white d) \/ (ok = true /\ c_white c = true /\ p = c_pid c)).
    { intros ok F. split.
      - intro K. apply white_inv in K as [(gs & m & es & E)|[(c' & q & E & E1 & E2 & E3)|[K _]]]; [discriminate| |left; tauto]. injection E as <-. apply (filter_one ansb ev _ _ F) in E3; [|auto]. right. split; [congruence|auto].
      - intros [K|(-> & W & ->)]; [apply white_still; [tauto|discriminate]|]. apply (white_here _ _ _ _ (c_ipc c)); auto. apply (proj1 (filter_In ansb _ ev)). rewrite F. cbn. auto. }
    apply O in B. rewrite B. clear. destruct (rank Running <? rank (d_level d)); [intuition discriminate|]. assert (T : In p (d_white d) \/ true = true /\ c_white c = true /\ p = c_pid c <-> In p (if c_white c then d_white d ++ [c_pid c] else d_white d)).
    { destruct (c_white c); [rewrite in_app_iff; cbn; intuition|]. intuition discriminate. }
    destruct (c_sing c) as [id|]; [|auto]. destruct (singleton id d); [intuition discriminate|auto].
Qed.
(* a process is killed when that's asked for, if it hasn't asked to be left alone, and never otherwise *)
Theorem killed d h i ev p : reach d (h ++ [(i, ev)]) -> In (Kill p) ev <-> i = Assassinate p true /\ ~ white p h.
Proof.
  intro R. apply reach_last in R as (d0 & o & R0 & P & S). apply step_white in S as [_ K]. rewrite (white_list d0 h p R0).
  assert (E : In (Kill p) ev <-> In (Kill p) (kills i d0)) by (rewrite <- K, filter_In; cbn; tauto). rewrite E. clear. destruct i; cbn; try (split; [contradiction|intros [X _]; discriminate]).
  destruct severe; cbn; [|split; [contradiction|intros [X _]; discriminate]]. destruct (existsb (Z.eqb pid) (d_white d0)) eqn:X; cbn.
  - split; [contradiction|]. intros [Y N]. injection Y as ->. apply N. apply existsb_exists in X as (x & J & Y). apply Z.eqb_eq in Y. now subst.
  - assert (N : ~ In pid (d_white d0)) by (intro J; assert (Y : existsb (Z.eqb pid) (d_white d0) = true) by (apply existsb_exists; exists pid; split; [auto|apply Z.eqb_refl]); congruence).
    split; [intros [Y|[]]; injection Y as ->; auto|intros [Y _]; injection Y as ->; auto].
Qed.
