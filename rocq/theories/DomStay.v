(* The domain manager: the processes that aren't concerned keep their instances. *)
From Coq Require Import ZArith List Bool Lia Permutation.
From Verif Require Import DomModel DomSpec DomBoot DomFrame DomMarks DomStep DomSeq DomTalk DomSing DomScale DomLook DomGrew DomProc DomPids DomKeep DomAsk DomCount DomDeny.
Import ListNotations.
Local Open Scope Z_scope.

Definition keep (n : option Z) (e e' : ent) : Prop := conf e' = conf e /\ forall x, In x (e_inst e) -> has_process (e_kind e) x -> i_pid x <> n -> In (proc x) (map proc (e_inst e')).
Lemma proc_has k x y : proc x = proc y -> has_process k x -> has_process k y.
Proof. apply has_proc. Qed.
Lemma keep_refl n e : keep n e e. Proof. split; [auto|]. intros x J _ _. now apply in_map. Qed.
Lemma keep_trans n a b c : keep n a b -> keep n b c -> keep n a c.
Proof.
  intros [A B] [C D]. split; [congruence|]. intros x J H N. specialize (B x J H N). apply in_map_iff in B as (y & E & Jy). assert (K : e_kind b = e_kind a) by (unfold conf in A; congruence).
  rewrite <- E. apply D; [auto|rewrite K; apply (proc_has _ x); auto|]. unfold proc in E. congruence.
Qed.
Lemma scale_keep1 n m e : keep n e (scale_to m e).
Proof. unfold scale_to. destruct (scale m e) as [e'|] eqn:E; [|apply keep_refl]. split; [apply (scale_conf' m); auto|]. intros x J H _. apply (scale_keeps m e e'); auto. Qed.
Lemma drop_keep p e : keep (Some p) e (ent_drop p e).
Proof.
  split; [reflexivity|]. cbn [ent_drop with_inst e_inst]. intros x J _ N. induction (e_inst e) as [|i l IH]; [contradiction|]. cbn [drop]. destruct (has_pid p i) eqn:E.
  - assert (J' : In x l) by (destruct J as [->|J]; [exfalso; unfold has_pid in E; destruct (i_pid x); [apply Z.eqb_eq in E; congruence|discriminate]|auto]). apply (in_map proc) in J'. destruct (i_want i); cbn; auto.
  - destruct J as [->|J]; cbn; auto.
Qed.
Lemma conn_keep p q e : keep (Some p) e (ent_conn p q e).
Proof. split; [reflexivity|]. cbn [ent_conn with_inst e_inst]. intros x J _ N. apply in_map. apply conn_other; auto. Qed.
Lemma put_keep n (es : list ent) e e' : NoDup (map e_id es) -> In e es -> (keep n) e e' -> Forall2 (keep n) es (put_in e' es).
Proof. intros N J C. apply (put_forall2 (keep n) es e e'); auto; [|apply keep_refl]. destruct C as [C _]. unfold conf in C. congruence. Qed.
Lemma F2_keep_refl n l : Forall2 (keep n) l l. Proof. apply Forall2_same. intros. apply keep_refl. Qed.
Lemma F2_keep_trans n a b c : Forall2 (keep n) a b -> Forall2 (keep n) b c -> Forall2 (keep n) a c.
Proof. apply Forall2_trans'. intros x y z. apply keep_trans. Qed.
Lemma keep_ids n l m : Forall2 (keep n) l m -> map e_id m = map e_id l.
Proof. intro F. apply conf_ids. apply (F2_conf (keep n)); auto. intros e e' (H & _). auto. Qed.
Lemma scale_all_keep n l es : forall d d', uniq d -> scale_all l es d = Some d' -> (forall e, In e es -> exists x, In x (d_ents d) /\ e_id x = e_id e) -> forall base, (forall e, In e es -> In e base) -> NoDup (map e_id base) -> Forall2 (keep n) base (d_ents d) -> Forall2 (keep n) base (d_ents d').
Proof.
  induction es as [|e r IH]; intros d d' U; cbn [scale_all]; [intro H; injection H as <-; auto|]. intros H X base B N F. destruct (find _ l) as [x|].
  - destruct (scale (snd x) e) as [e'|] eqn:E; [|discriminate]. assert (C : (keep n) e e') by (pose proof (scale_keep1 n (snd x) e) as C; unfold scale_to in C; now rewrite E in C).
    assert (Ei : e_id e' = e_id e) by (destruct C as [C _]; unfold conf in C; congruence).
    assert (F' : Forall2 (keep n) base (d_ents (put e' d))).
    { cbn. pose proof (B e (or_introl eq_refl)) as Je. clear - F C N Je Ei. induction F as [|a b l m K F IH]; [constructor|]. cbn [map]. cbn in N. inversion N as [|? ? Y1 Y2]; subst. assert (Eb : e_id b = e_id a) by (destruct K as [K _]; unfold conf in K; congruence).
      constructor.
      - destruct (e_id b =? e_id e') eqn:Q; [|auto]. apply Z.eqb_eq in Q. destruct Je as [->|Je]; [auto|]. exfalso. apply Y1. rewrite <- Eb, Q, Ei. now apply in_map.
      - destruct Je as [->|Je]; [|apply IH; auto]. assert (M : map (fun x => if e_id x =? e_id e' then e' else x) m = m); [|rewrite M; exact F]. rewrite <- (map_id m) at 2. apply map_ext_in. intros y Jy. destruct (e_id y =? e_id e') eqn:Q; [|auto]. apply Z.eqb_eq in Q.
        exfalso. apply Y1. rewrite <- Ei, <- Q. rewrite <- (keep_ids n _ _ F). now apply in_map. }
    assert (I : map e_id (d_ents (put e' d)) = map e_id (d_ents d)) by now rewrite (keep_ids n _ _ F'), (keep_ids n _ _ F).
    apply (IH (put e' d) d'); auto.
    + unfold uniq. rewrite I. exact U.
    + intros a J. destruct (X a (or_intror J)) as (y & Jy & Ey). assert (K : In (e_id a) (map e_id (d_ents (put e' d)))) by (rewrite I, <- Ey; now apply in_map). apply in_map_iff in K as (z & K1 & K2). exists z. auto.
    + intros a J. apply B. cbn. auto.
  - apply (IH d d'); auto; intros a J; [apply X|apply B]; cbn; auto.
Qed.
(* the one that the input is about *)
Definition about (i : input) : option Z := match i with Exit p => Some p | Connect c => Some (c_pid c) | _ => None end.
Lemma ents_keep n i d : n = about i -> uniq d -> (forall p gs m es, i <> Begin p gs m es) -> Forall2 (keep n) (d_ents d) (ents_of i d).
Proof.
  intros Hn U NB. pose proof (F2_keep_refl n (d_ents d)) as R. assert (DN : forall x, d_ents x = d_ents d -> Forall2 (keep n) (d_ents d) (d_ents (down_pre x))).
  { intros x E. unfold down_pre. cbn [d_ents set_ents cancel set_tasks set_level]. rewrite E. clear. induction (d_ents d) as [|e l IH]; constructor; auto. destruct (_ =? _); [apply keep_refl|apply scale_keep1]. }
  destruct i; cbn [ents_of]; cbn [about] in Hn; subst n; auto.
  - exfalso. now apply (NB pid gs mgr es).
  - rewrite remove_ents. cbv zeta. destruct (server_of pid d) as [e|] eqn:E.
    + apply server_of_in in E as (J & _). assert (F : Forall2 (keep (Some pid)) (d_ents d) (put_in (ent_drop pid e) (d_ents d))) by (apply (put_keep _ _ e); auto; apply drop_keep). destruct (e_restart e && _); [auto|].
      destruct (find _ _) as [x|] eqn:G; [|auto]. apply find_some in G as [G _]. eapply F2_keep_trans; [exact F|]. apply (put_keep _ _ x); auto; [rewrite (keep_ids _ _ _ F); exact U|apply drop_keep].
    + destruct (exec_of pid d) as [x|] eqn:G; [|auto]. apply exec_of_in in G as (J & _). apply (put_keep _ _ x); auto. apply drop_keep.
  - destruct (rank Running <? rank (d_level d)); [auto|]. destruct (match c_sing c with Some id => singleton id d | None => None end).
    + destruct (server_of (c_pid c) d) as [e|] eqn:E; [apply server_of_in in E as (J & _)|destruct (exec_of (c_pid c) d) as [e|] eqn:E2; [apply exec_of_in in E2 as (J & _)|auto]];
        (apply (put_keep _ _ e); auto; eapply keep_trans; [apply drop_keep|apply scale_keep1]).
    + destruct (server_of (c_pid c) d) as [e|] eqn:E; [|auto]. apply server_of_in in E as (J & _). apply (put_keep _ _ e); auto. apply conn_keep.
  - destruct (d_level d); auto.
  - destruct (scale_all l (scalables d (map fst l)) d) as [d1|] eqn:E; [|auto]. apply (scale_all_keep _ l _ d d1 U E); auto; intros e J; apply scalables_in in J; eauto.
Qed.
(* each process that's connected, or is an executable's, but the one that ends or connects, is that of an instance of the same as before *)
Theorem step_keeps d0 h o i d ev e x : reach d0 h -> possible h o i -> step o i d0 = Some (d, ev) -> (forall p gs m es, i <> Begin p gs m es) -> In e (d_ents d0) -> In x (e_inst e) -> has_process (e_kind e) x ->
  (forall p, i = Exit p -> i_pid x <> Some p) -> (forall c, i = Connect c -> i_pid x <> Some (c_pid c)) ->
  exists e' x', In e' (d_ents d) /\ conf e' = conf e /\ In x' (e_inst e') /\ i_pid x' = i_pid x /\ i_ipc x' = i_ipc x.
Proof.
  intros R P St NB Je Jx Hx NE NC. pose proof (k_rest _ _ (reach_kept _ _ R)) as (U & _ & _). pose proof (step_grows o i d0 d ev U ltac:(intros p gs m es E; now apply NB in E) St) as G.
  pose proof (ents_keep (about i) i d0 eq_refl U NB) as F. destruct (F2_left _ _ _ _ F Je) as (e1 & J1 & [C1 K]). destruct (F2_left _ _ _ _ (w_ents _ _ _ _ G) J1) as (e' & J' & [C' I]).
  assert (PN : i_pid x <> None) by (destruct (e_kind e); [destruct Hx as (p & q & -> & _)|destruct Hx as (p & ->)]; discriminate).
  assert (N : i_pid x <> about i) by (destruct i; cbn [about]; auto). specialize (K x Jx Hx N). apply in_map_iff in K as (y & Ey & Jy). unfold proc in Ey. injection Ey as E1 E2.
  destruct (F2_left _ _ _ _ I Jy) as (z & Jz & [->|(Q & _)]); [|congruence]. exists e', y. split; [auto|]. split; [congruence|]. auto.
Qed.
