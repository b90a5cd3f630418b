(* The domain manager: what the parts of it don't change, and the events of the tasks. *)
From Coq Require Import ZArith List Bool Lia Permutation.
From Verif Require Import DomModel DomSpec.
Import ListNotations.
Local Open Scope Z_scope.

Lemma marks_app a b : marks (a ++ b) = marks a ++ marks b.
Proof. apply filter_app. Qed.
(* the ids are different, so that what's found for an id is all there is *)
Definition uniq (d : dom) : Prop := NoDup (map e_id (d_ents d)).
Lemma conf_ids (a b : list ent) : map conf a = map conf b -> map e_id a = map e_id b.
Proof. intro H. assert (E : forall l, map e_id l = map (fun c => fst (fst (fst (fst (fst c))))) (map conf l)) by (intro l; rewrite map_map; reflexivity). rewrite !E. now rewrite H. Qed.
Lemma uniq_id (es : list ent) e e' : NoDup (map e_id es) -> In e es -> In e' es -> e_id e = e_id e' -> e = e'.
Proof.
  induction es as [|x l IH]; intros N A B E; [contradiction|]. cbn in N. inversion N as [|? ? P Q]; subst.
  destruct A as [<-|A], B as [<-|B]; auto; exfalso; apply P; [rewrite E|rewrite <- E]; now apply in_map.
Qed.
Lemma find_id (es : list ent) e : NoDup (map e_id es) -> In e es -> find (fun x => e_id x =? e_id e) es = Some e.
Proof.
  intros N J. destruct (find _ es) as [x|] eqn:F.
  - apply find_some in F as [K E]. apply Z.eqb_eq in E. f_equal. now apply (uniq_id es).
  - exfalso. apply (find_none _ _ F) in J. now rewrite Z.eqb_refl in J.
Qed.
Lemma entity_in id d e : entity id d = Some e -> In e (d_ents d) /\ e_id e = id.
Proof. intro F. apply find_some in F as [K E]. apply Z.eqb_eq in E. auto. Qed.
Lemma in_entity d e : uniq d -> In e (d_ents d) -> entity (e_id e) d = Some e.
Proof. apply find_id. Qed.

(* [frame d d' x]: only the instances, what it has sent to itself and the results to come have changed, and [x] has been done *)
Definition frame (d d' : dom) (x : list effect) : Prop :=
  d_level d' = d_level d /\ d_groups d' = d_groups d /\ d_mgr d' = d_mgr d /\ map conf (d_ents d') = map conf (d_ents d) /\ d_sing d' = d_sing d /\ d_grand d' = d_grand d
  /\ d_look d' = d_look d /\ d_white d' = d_white d /\ d_tasks d' = d_tasks d /\ d_out d' = d_out d ++ x.
Lemma frame_refl d : frame d d [].
Proof. unfold frame. rewrite app_nil_r. auto 15. Qed.
Lemma frame_trans a b c x y : frame a b x -> frame b c y -> frame a c (x ++ y).
Proof. unfold frame. intros (A1 & A2 & A3 & A4 & A5 & A6 & A7 & A8 & A9 & A10) (B1 & B2 & B3 & B4 & B5 & B6 & B7 & B8 & B9 & B10). rewrite app_assoc. repeat split; congruence. Qed.
Lemma frame_say d x : frame d (say x d) x.
Proof. unfold frame. cbn. auto 15. Qed.
Lemma frame_uniq d d' x : frame d d' x -> uniq d -> uniq d'.
Proof. intros F U. unfold uniq. rewrite (conf_ids _ _ (proj1 (proj2 (proj2 (proj2 F))))). auto. Qed.
Lemma put_conf (es : list ent) e x : NoDup (map e_id es) -> In x es -> conf e = conf x -> map conf (map (fun y => if e_id y =? e_id e then e else y) es) = map conf es.
Proof.
  intros N J C. rewrite map_map. apply map_ext_in. intros y K. destruct (e_id y =? e_id e) eqn:E; [|auto]. apply Z.eqb_eq in E.
  assert (y = x). { apply (uniq_id es); auto. rewrite E. unfold conf in C. congruence. } congruence.
Qed.
Lemma frame_put d e x : uniq d -> In x (d_ents d) -> conf e = conf x -> frame d (put e d) [].
Proof. intros U J C. unfold frame. cbn. rewrite app_nil_r, (put_conf _ _ _ U J C). auto 15. Qed.
Lemma entity_put d e id : uniq d -> (exists x, In x (d_ents d) /\ e_id x = e_id e) -> entity id (put e d) = if id =? e_id e then Some e else entity id d.
Proof.
  intros U (x & J & E). unfold entity, put, uniq in *. cbn [d_ents set_ents]. destruct (id =? e_id e) eqn:F.
  - apply Z.eqb_eq in F. subst id. clear U. induction (d_ents d) as [|y l IH]; [contradiction|]. cbn [map find]. destruct (e_id y =? e_id e) eqn:G.
    + now rewrite Z.eqb_refl.
    + rewrite G. destruct J as [->|J]; [rewrite E, Z.eqb_refl in G; discriminate|auto].
  - clear - F. induction (d_ents d) as [|y l IH]; [auto|]. cbn [map find]. destruct (e_id y =? e_id e) eqn:G; cbn.
    + apply Z.eqb_eq in G. rewrite G. assert (H : e_id e =? id = false) by now rewrite Z.eqb_sym. now rewrite H.
    + destruct (e_id y =? id); auto.
Qed.

(* ---- series ---- *)
Lemma span_app {A} (p : A -> bool) l : let (a, b) := span p l in l = a ++ b /\ (forall x, In x a -> p x = true) /\ match b with [] => True | y :: _ => p y = false end.
Proof.
  induction l as [|x l IH]; cbn [span]; [cbn; auto|].
  destruct (p x) eqn:P; [|split; [auto|split; [contradiction|auto]]]. destruct (span p l) as [a b]. destruct IH as (-> & B & C). split; [auto|]. split; [|auto]. intros y [<-|J]; auto.
Qed.
Lemma subrange_app {A} (p : A -> bool) l a r c : subrange p l = (a, r, c) -> l = a ++ r ++ c /\ (forall x, In x a -> p x = false) /\ (forall x, In x r -> p x = true) /\ (r = [] -> forall x, In x l -> p x = false).
Proof.
  unfold subrange. pose proof (span_app (fun x => negb (p x)) l) as H. destruct (span (fun x => negb (p x)) l) as [a' l']. destruct H as (-> & B & C).
  pose proof (span_app p l') as H. destruct (span p l') as [r' c']. destruct H as (-> & E & F). intro K. injection K as <- <- <-.
  split; [auto|]. split; [intros x J; apply B in J; now apply negb_true_iff in J|]. split; [auto|]. intros -> x J. cbn [app] in *. destruct c' as [|y c']; [rewrite app_nil_r in J; apply B in J; now apply negb_true_iff in J|].
  cbn [app] in C. rewrite F in C. discriminate.
Qed.
Lemma subrange_none {A} (p : A -> bool) l : (forall x, In x l -> p x = false) -> exists a c, subrange p l = (a, [], c).
Proof.
  destruct (subrange p l) as [[a r] c] eqn:E. apply subrange_app in E as (-> & _ & P & _). intro H. destruct r as [|x r]; [eauto|]. exfalso.
  specialize (P x (or_introl eq_refl)). rewrite (H x) in P; [discriminate|apply in_or_app; right; cbn; auto].
Qed.

(* ---- scale in and out ---- *)
Definition of_ent (id : Z) (e : effect) : Prop := match e with Spawned i _ | Failed i => i = id | Prepare _ _ | Term _ => True | _ => False end.
Lemma of_ent_marks id x : (forall e, In e x -> of_ent id e) -> marks x = [].
Proof. induction x as [|e x IH]; intro H; [auto|]. cbn. pose proof (H e (or_introl eq_refl)) as F. destruct e; cbn in F |- *; try contradiction; apply IH; intros f J; apply H; cbn; auto. Qed.
Lemma scale_in_frame e d : exists x, frame d (scale_in e d) x /\ (forall f, In f x -> match f with Prepare _ _ | Term _ => True | _ => False end) /\ d_ents (scale_in e d) = d_ents d /\ d_orc (scale_in e d) = d_orc d.
Proof.
  unfold scale_in. destruct (subrange _ _) as [[a r] c]. destruct r as [|i r]; [exists []; split; [apply frame_refl|split; [contradiction|auto]]|].
  destruct (e_kind e).
  - unfold shut. destruct (singleton sm d).
    + eexists. split; [apply frame_say|]. split; [|auto]. intros f [<-|[]]. exact Logic.I.
    + exists []. split; [unfold frame, push; cbn; rewrite app_nil_r; auto 15|]. split; [contradiction|auto].
  - eexists. split; [apply frame_say|]. split; [|auto]. intros f J. apply in_map_iff in J as (y & <- & _). exact Logic.I.
Qed.
Lemma spawns_out id l : forall o l' ev o', spawns id l o = (l', ev, o') ->
  (forall e, In e ev -> match e with Spawned i _ | Failed i => i = id | _ => False end) /\ length l' = length l /\ length ev = length l.
Proof.
  induction l as [|i l IH]; intros o l' ev o'; cbn [spawns].
  - intro H; injection H as <- <- <-. split; [contradiction|auto].
  - destruct o as [|[p|] o].
    + destruct (spawns id l (tl [])) as [[u v] w] eqn:E. intro H; injection H as <- <- <-. apply IH in E as (A & B & C). cbn. split; [intros e [<-|J]; auto; now apply A|auto].
    + destruct (spawns id l o) as [[u v] w] eqn:E. intro H; injection H as <- <- <-. apply IH in E as (A & B & C). cbn. split; [intros e [<-|J]; auto; now apply A|auto].
    + destruct (spawns id l (tl (None :: o))) as [[u v] w] eqn:E. intro H; injection H as <- <- <-. apply IH in E as (A & B & C). cbn. split; [intros e [<-|J]; auto; now apply A|auto].
Qed.
Lemma conf_with l e : conf (with_inst l e) = conf e.
Proof. reflexivity. Qed.
Lemma scale_out_frame e d : uniq d -> In e (d_ents d) -> exists x, frame d (scale_out e d) x /\ (forall f, In f x -> of_ent (e_id e) f) /\ (d_ents (scale_out e d) = d_ents d \/ exists l, d_ents (scale_out e d) = d_ents (put (with_inst l e) d)).
Proof.
  intros U J. unfold scale_out. destruct (match e_kind e with Server => e_on e | Exec => true end); [|exists []; split; [apply frame_refl|split; [contradiction|auto]]].
  destruct (subrange _ _) as [[a r] c]. destruct r as [|i r]; [exists []; split; [apply frame_refl|split; [contradiction|auto]]|].
  destruct (spawns (e_id e) (i :: r) (d_orc d)) as [[l' ev] o] eqn:E. exists ev. split; [|split].
  - unfold frame, push, say. cbn [d_level d_groups d_mgr d_ents d_sing d_grand d_look d_white d_tasks d_out set_self set_orc set_out put set_ents].
    rewrite (put_conf _ (with_inst (a ++ l' ++ c) e) e U J) by reflexivity. auto 15.
  - intros f F. apply (proj1 (spawns_out _ _ _ _ _ _ E)) in F. destruct f; cbn in *; auto; contradiction.
  - right. exists (a ++ l' ++ c). reflexivity.
Qed.
Lemma instances_frame e d : uniq d -> In e (d_ents d) -> exists x, frame d (instances e d) x /\ (forall f, In f x -> of_ent (e_id e) f) /\ (d_ents (instances e d) = d_ents d \/ exists l, d_ents (instances e d) = d_ents (put (with_inst l e) d)).
Proof.
  intros U J. unfold instances. destruct (scale_in_frame e d) as (x & F & X & E & _).
  destruct (scale_out_frame e (scale_in e d)) as (y & G & Y & H); [now apply (frame_uniq d _ x)|now rewrite E|].
  exists (x ++ y). split; [now apply (frame_trans d (scale_in e d))|]. split.
  - intros f K. apply in_app_or in K as [K|K]; [|auto]. apply X in K. destruct f; cbn; auto; contradiction.
  - rewrite E in H. destruct H as [H|(l & H)]; [auto|right; exists l]. rewrite H. unfold put, set_ents. cbn. now rewrite E.
Qed.
Lemma inst_id_frame id d : uniq d -> exists x, frame d (instances_id d id) x /\ (forall f, In f x -> of_ent id f).
Proof.
  intro U. unfold instances_id. destruct (entity id d) as [e|] eqn:E; [|exists []; split; [apply frame_refl|contradiction]].
  apply entity_in in E as [J <-]. destruct (instances_frame e d U J) as (x & F & X & _). eauto.
Qed.
Lemma fold_inst_frame ids : forall d, uniq d -> exists x, frame d (fold_left instances_id ids d) x /\ forall f, In f x -> exists id, In id ids /\ of_ent id f.
Proof.
  induction ids as [|id ids IH]; intros d U; cbn [fold_left]; [exists []; split; [apply frame_refl|contradiction]|].
  destruct (inst_id_frame id d U) as (x & F & X). destruct (IH _ (frame_uniq _ _ _ F U)) as (y & G & Y). exists (x ++ y). split; [now apply (frame_trans d (instances_id d id))|].
  intros f K. apply in_app_or in K as [K|K]; [exists id; cbn; auto|]. apply Y in K as (i & K & L). exists i. cbn. auto.
Qed.

(* ---- when it's settled, there's nothing to scale ---- *)
Lemma settled_nothing e d : forallb (settled (e_kind e)) (e_inst e) = true -> instances e d = d.
Proof.
  intro H. assert (A : forall t, t = SScaleIn \/ t = SScaleOut -> forall i, In i (e_inst e) -> is_st (e_kind e) t i = false).
  { intros t T i J. rewrite forallb_forall in H. apply H in J. unfold settled, is_st in *. destruct (state_of (e_kind e) i), T as [-> | ->]; try discriminate; reflexivity. }
  assert (SI : scale_in e d = d). { unfold scale_in. destruct (subrange_none (is_st (e_kind e) SScaleIn) (e_inst e)) as (a & c & ->); [apply A; auto|reflexivity]. }
  unfold instances. rewrite SI. unfold scale_out. destruct (match e_kind e with Server => _ | Exec => _ end); [|auto]. destruct (subrange_none (is_st (e_kind e) SScaleOut) (e_inst e)) as (a & c & ->); [apply A; auto|reflexivity].
Qed.
Lemma entity_eq (d d' : dom) id : d_ents d' = d_ents d -> entity id d' = entity id d.
Proof. unfold entity. now intros ->. Qed.
Lemma ent_done_eq (d d' : dom) id : d_ents d' = d_ents d -> ent_done d' id = ent_done d id.
Proof. intro E. unfold ent_done. now rewrite (entity_eq d d'). Qed.
Lemma group_done_eq (d d' : dom) b : d_ents d' = d_ents d -> group_done b d' = group_done b d.
Proof. intro E. unfold group_done. induction b as [|x b IH]; cbn; [auto|]. now rewrite IH, (ent_done_eq d d' x E). Qed.
Lemma inst_id_done d id x : uniq d -> ent_done d x = true -> ent_done (instances_id d id) x = true.
Proof.
  intros U H. unfold instances_id. destruct (entity id d) as [e|] eqn:E; [|auto]. destruct (x =? id) eqn:X.
  - apply Z.eqb_eq in X. subst x. unfold ent_done in H. rewrite E in H. rewrite settled_nothing; auto. unfold ent_done. now rewrite E.
  - pose proof (entity_in _ _ _ E) as [J Ei]. destruct (instances_frame e d U J) as (y & _ & _ & [K|(l & K)]); [now rewrite (ent_done_eq d)|].
    rewrite (ent_done_eq (put (with_inst l e) d) _ _ K). unfold ent_done in *. rewrite entity_put by (auto; exists e; auto). cbn [e_id with_inst]. rewrite Ei, X. auto.
Qed.
Lemma fold_inst_done ids x : forall d, uniq d -> ent_done d x = true -> ent_done (fold_left instances_id ids d) x = true.
Proof.
  induction ids as [|id ids IH]; intros d U H; cbn [fold_left]; [auto|]. destruct (inst_id_frame id d U) as (y & F & _). apply IH; [now apply (frame_uniq d _ y)|now apply inst_id_done].
Qed.
Lemma fold_inst_group ids b d : uniq d -> group_done b d = true -> group_done b (fold_left instances_id ids d) = true.
Proof. unfold group_done. intros U H. rewrite forallb_forall in *. intros x J. apply fold_inst_done; auto. Qed.
