(* What a forward knows of its queues. *)
From Coq Require Import ZArith List Bool Lia.
From Verif Require Import QfwModel QfwSpec QfwProofs QfwInv QfwFlow QfwCount QfwShape QfwStop QfwEnd QfwQuiet QfwLook.
Import ListNotations.
Local Open Scope Z_scope.

(* what an input can do with what is known of a queue; [any]: a queue that is remote will do *)
Definition refrel (i : input) (any : bool) (r r' : ref) : Prop :=
  r' = r \/ (upsets i = true /\ r_name r' = r_name r /\ r_ipc r' = 0) \/ (exists k q p rem, i = QueueFound k (r_name r) q p rem /\ r' = Ref (r_name r) q p /\ (any = false -> rem = false)).
Definition destrel (i : input) (a b : option (ref * Z)) : Prop :=
  match a, b with Some (d, x), Some (d', x') => x' = x /\ refrel i true d d' | None, None => True | _, _ => False end.
Definition frel (i : input) (f f' : forward) : Prop := static f' = static f /\ refrel i false (f_source f) (f_source f') /\ destrel i (f_dest f) (f_dest f').
Definition fresh (f : forward) : Prop := r_ipc (f_source f) = 0 /\ match f_dest f with Some (d, _) => r_ipc d = 0 | None => True end.
Definition grows (i : input) (l l' : list forward) : Prop := exists a b, l' = a ++ b /\ Forall2 (frel i) l a /\ Forall fresh b.
Lemma destrel_refl i d : destrel i d d.
Proof. destruct d as [[d x]|]; cbn; auto. split; auto. now left. Qed.
Lemma frel_same i f f' : static f' = static f -> f_source f' = f_source f -> f_dest f' = f_dest f -> frel i f f'.
Proof. intros A B D. split; auto. split; [left; auto|]. rewrite D. apply destrel_refl. Qed.
Lemma forall2_refl i l : Forall2 (frel i) l l.
Proof. induction l; constructor; auto. now apply frel_same. Qed.
Lemma grows_refl i l : grows i l l.
Proof. exists l, []. rewrite app_nil_r. split; auto. split; [apply forall2_refl|constructor]. Qed.
Lemma grows_set i l f y : NoDup (map f_id l) -> In y l -> f_id y = f_id f -> frel i y f -> grows i l (set_forward f l).
Proof.
  intros N I E R. exists (set_forward f l), []. rewrite app_nil_r. split; auto. split; [|constructor]. clear - N I E R. induction l as [|x l IH]; [destruct I|]. cbn [set_forward]. cbn [map] in N. inversion N as [|? ? A B]; subst.
  destruct (f_id x =? f_id f) eqn:Q.
  - apply Z.eqb_eq in Q. destruct I as [->|I]; [|exfalso; apply A; rewrite Q, <- E; now apply in_map]. constructor; auto. apply forall2_refl.
  - apply Z.eqb_neq in Q. destruct I as [->|I]; [congruence|]. constructor; [now apply frel_same|auto].
Qed.
Lemma running_rel i f n g : frel i f g -> frel i f (with_running n g).
Proof. intros (A & B & D). split; [exact A|split; [exact B|exact D]]. Qed.
Lemma decrement_rel i f : upsets i = true -> frel i f (decrement f).
Proof.
  intro U. split; [apply static_decrement|]. unfold decrement. cbv zeta. destruct (absent _); cbn; [|split; [now left|apply destrel_refl]]. split; [right; left; auto|]. destruct (f_dest f) as [[d x]|]; cbn; auto. split; auto. right; left. auto.
Qed.
Lemma invalidate_rel i f : upsets i = true -> frel i f (invalidate_queues f).
Proof.
  intro U. split; [apply static_invalidate|]. cbn. split; [right; left; auto|]. destruct (f_dest f) as [[d x]|]; cbn; auto. split; auto. right; left. auto.
Qed.
Lemma assign_rel k name q p r f : frel (QueueFound k name q p r) f (fst (assign name q p r f)).
Proof.
  split; [apply static_assign|]. assert (D : destrel (QueueFound k name q p r) (f_dest f) (option_map (fun d => if r_name (fst d) =? name then (Ref name q p, snd d) else d) (f_dest f))).
  { destruct (f_dest f) as [[d x]|]; cbn; auto. destruct (r_name d =? name) eqn:E; [|split; [auto|now left]]. apply Z.eqb_eq in E. subst name. split; auto. right; right. exists k, q, p, r. split; [auto|split; [auto|discriminate]]. }
  unfold assign. cbv zeta. destruct (r_name (f_source f) =? name) eqn:E; [|split; [now left|exact D]]. apply Z.eqb_eq in E. destruct r; cbn [fst]; (split; [|exact D]); [now left|]. right; right. exists k, q, p, false. cbn. subst name. auto.
Qed.
Lemma next_grows_f i s x f y : NoDup (map f_id (s_forwards s)) -> In y (s_forwards s) -> f_id y = f_id f -> frel i y f -> grows i (s_forwards s) (s_forwards (fst (next f (with_pending x s)))).
Proof.
  intros N I E R. unfold next. destruct (valid_queues f).
  - unfold dequeue_request. destruct (f_enabled f); [|now apply (grows_set i _ f y)]. pose proof (dequeue_n_facts (missing f) f (with_pending x s)) as X. cbv zeta in X. destruct X as (_ & X & _). rewrite X. apply (grows_set i _ _ y); auto using running_rel.
  - destruct (existsb _ _); [now apply (grows_set i _ f y)|]. unfold lookup_queues. pose proof (ask_facts (f_id f) (queues_of f) (put_forward f (with_pending x s))) as X. cbv zeta in X. destruct X as (_ & X & _). rewrite X. now apply (grows_set i _ f y).
Qed.
Lemma grows_trans_update l fs : grows (Update l) fs fs -> forall c, grows (Update l) fs (add_or_update c fs).
Proof.
  intros _ c. unfold add_or_update. destruct (existsb _ _).
  - exists (set_instances c fs), []. rewrite app_nil_r. split; auto. split; [|constructor]. induction fs as [|f fs IH]; cbn; [constructor|]. destruct (same_kind c f && (f_alias f =? g_alias c)); (constructor; [now apply frel_same|]); [apply forall2_refl|exact IH].
  - exists fs, [create c (Z.of_nat (length fs) + 1)]. split; auto. split; [apply forall2_refl|]. constructor; [|constructor]. split; [reflexivity|]. cbn. destruct (g_dest c) as [[d x]|]; reflexivity || exact Logic.I.
Qed.
Lemma refrel_trans l any a b c : refrel (Update l) any a b -> refrel (Update l) any b c -> refrel (Update l) any a c.
Proof. intros [->|[[X _]|(k & q & p & rem & X & _)]]; auto; discriminate. Qed.
Lemma frel_trans l a b c : frel (Update l) a b -> frel (Update l) b c -> frel (Update l) a c.
Proof.
  intros (A1 & A2 & A3) (B1 & B2 & B3). split; [congruence|]. split; [now apply (refrel_trans l _ _ (f_source b))|]. unfold destrel in *. destruct (f_dest a) as [[d x]|], (f_dest b) as [[d' x']|], (f_dest c) as [[d'' x'']|]; try contradiction; auto. destruct A3, B3. split; [congruence|now apply (refrel_trans l _ _ d')].
Qed.
Lemma fresh_rel l f g : fresh f -> frel (Update l) f g -> fresh g.
Proof.
  intros [A B] (_ & [D|[[D _]|(k & q & p & rem & D & _)]] & E); try discriminate. split; [now rewrite D|]. unfold destrel in E. destruct (f_dest f) as [[d x]|], (f_dest g) as [[d' x']|]; try contradiction; auto. destruct E as [_ [->|[[E _]|(k & q & p & rem & E & _)]]]; auto; discriminate.
Qed.
Lemma grows_trans l a b c : grows (Update l) a b -> grows (Update l) b c -> grows (Update l) a c.
Proof.
  intros (b1 & b2 & -> & R1 & F1) (c1 & c2 & -> & R2 & F2). apply Forall2_app_inv_l in R2 as (x & y & X & Y & ->). exists x, (y ++ c2). rewrite app_assoc. split; auto. split.
  - clear - R1 X. revert x X. induction R1 as [|f g l1 l2 R R1 IH]; intros x X; inversion X; subst; constructor; eauto using frel_trans.
  - apply Forall_app. split; auto. clear - F1 Y. revert y Y. induction F1 as [|f l1 F F1 IH]; intros y Y; inversion Y; subst; constructor; eauto using fresh_rel.
Qed.
Lemma grows_confs l cs : forall fs, grows (Update l) fs (fold_left (fun a c => add_or_update c a) cs fs).
Proof.
  induction cs as [|c cs IH]; intro fs; cbn [fold_left]; [apply grows_refl|]. apply (grows_trans l _ (add_or_update c fs)); auto. apply grows_trans_update, grows_refl.
Qed.
Lemma forall2_len {A} (R : A -> A -> Prop) a b : Forall2 R a b -> length a = length b.
Proof. intro F. induction F; cbn; auto. Qed.
Lemma grows_dead p l : forall fs s', NoDup (map f_id fs) -> NoDup (map f_id l) -> (forall f, In f l -> In f (s_forwards s')) -> grows (Dead p) fs (s_forwards s') -> map f_id (s_forwards s') = map f_id fs -> (forall f, In f l -> In f fs) ->
  grows (Dead p) fs (s_forwards (fst (each (dead_one p) l s'))).
Proof.
  induction l as [|f l IH]; intros fs s' N Nl Sub G Ids Sub2; cbn [each]; auto. cbn [map] in Nl. inversion Nl as [|? ? X Y]; subst.
  set (f' := with_queues (f_source f) (option_map (fun d => (ref_invalidate (fst d), snd d)) (f_dest f)) f).
  assert (Rf : frel (Dead p) f f'). { split; [unfold static; cbn; destruct (f_dest f) as [[d x]|]; reflexivity|]. split; [now left|]. cbn. destruct (f_dest f) as [[d x]|]; cbn; auto. split; auto. right; left. auto. }
  assert (K : s_forwards (fst (dead_one p f s')) = s_forwards s' \/ s_forwards (fst (dead_one p f s')) = set_forward f' (s_forwards s')).
  { unfold dead_one. cbv zeta. destruct (_ || _); [|auto]. destruct (match f_dest f with Some (d, _) => _ | None => _ end); cbn [fst]; auto. }
  destruct (dead_one p f s') as [s1 e1]. cbn [fst] in K. specialize (IH fs s1 N Y). destruct (each (dead_one p) l s1) as [s2 e2]. cbn [fst] in *. apply IH; clear IH.
  - intros g Gi. destruct K as [-> | ->]; [apply Sub; now right|]. assert (D : f_id g <> f_id f) by (intro Q; apply X; rewrite <- Q; now apply in_map). pose proof (Sub g (or_intror Gi)) as J. clear - J D. induction (s_forwards s') as [|x m IH]; [destruct J|]. cbn. change (f_id f') with (f_id f). destruct (f_id x =? f_id f) eqn:Q; destruct J as [->|J]; [apply Z.eqb_eq in Q; congruence|now right|now left|right; auto].
  - destruct K as [-> | ->]; auto. destruct G as (a & b & E & R & F).
    (* f is where it was *)
    pose proof (Sub2 f (or_introl eq_refl)) as J. assert (Lb : b = []). { pose proof (forall2_len _ _ _ R) as RL. apply (f_equal (@length Z)) in Ids. rewrite !map_length, E, app_length in Ids. destruct b; auto. cbn in Ids. lia. } subst b. rewrite app_nil_r in E. rewrite E in *.
    exists (set_forward f' a), []. rewrite app_nil_r. split; auto. split; [|constructor]. clear - R J N Rf. revert J N. induction R as [|x y l1 l2 Q R IH]; intros J N; [destruct J|]. cbn [set_forward]. change (f_id f') with (f_id f). cbn [map] in N. inversion N as [|? ? A B]; subst.
    assert (Exy : f_id y = f_id x) by (destruct Q as [Q _]; unfold static in Q; now injection Q). rewrite Exy. destruct (f_id x =? f_id f) eqn:W.
    + apply Z.eqb_eq in W. destruct J as [->|J]; [|exfalso; apply A; rewrite W; now apply in_map]. constructor; auto.
    + apply Z.eqb_neq in W. destruct J as [->|J]; [congruence|]. constructor; auto.
  - destruct K as [-> | ->]; auto. rewrite <- Ids. clear - Sub. assert (J : In f (s_forwards s')) by (apply Sub; now left). clear Sub. induction (s_forwards s') as [|x m IH]; cbn; auto. change (f_id f') with (f_id f). destruct (f_id x =? f_id f) eqn:Q; cbn; [apply Z.eqb_eq in Q; now rewrite Q|]. apply Z.eqb_neq in Q. destruct J as [->|J]; [congruence|]. now rewrite IH.
  - intros g Gi. apply Sub2. now right.
Qed.
Lemma step_grows C s st i : Inv C s st -> grows i (s_forwards s) (s_forwards (fst (step i s))).
Proof.
  intros H. pose proof (i_nodup _ _ _ H) as ND. pose proof (inv_nodup_ids _ _ _ H) as NF. destruct i as [l|k name q p r|k r|k m|k|k d|k a|k|k code r|k ok|k pr|k|k|k|p|].
  - cbn [step]. unfold update. cbv zeta. match goal with |- context [comply ?x] => pose proof (comply_facts x) as X; cbv zeta in X; destruct (comply x) as [s1 ev] end. cbn [fst s_forwards] in *. destruct X as (_ & -> & _). apply grows_confs.
  - cbn [step]. destruct (consume LookQ k s) as [[x s1]|] eqn:E; [|apply grows_refl]. apply consume_spec in E as (I & SX & K & ->); auto. subst k. destruct (is_down _); [apply grows_refl|]. destruct (find_forward (p_fwd x) _) as [f|] eqn:F; [|apply grows_refl].
    apply find_forward_some in F as [F1 F2]. cbn in F1. pose proof (assign_rel (p_corr x) name q p r f) as R. destruct (running_assign name q p r f) as [_ Ri]. destruct (assign name q p r f) as [f' e]. cbn [fst] in *. destruct (valid_queues f'); [|now apply (grows_set _ _ _ f)].
    unfold dequeue_request. destruct (f_enabled f'); [|now apply (grows_set _ _ _ f)]. pose proof (dequeue_n_facts (missing f') f' (with_pending (but (p_corr x) (s_pending s)) s)) as X. cbv zeta in X. destruct (dequeue_n _ _ _) as [s2 ev]. cbn [fst] in *. destruct X as (_ & -> & _). apply (grows_set _ _ _ f); auto using running_rel.
  - cbn [step]. destruct r; [apply grows_refl|]. destruct (consume LookQ k s) as [[x s1]|] eqn:E; [|apply grows_refl]. apply consume_spec in E as (I & SX & K & ->); auto. apply grows_refl.
  - cbn [step]. destruct (consume Deq k s) as [[x s1]|] eqn:E; [|apply grows_refl]. apply consume_spec in E as (I & SX & K & ->); auto. destruct m; [|apply grows_refl]. destruct (is_down _); [apply grows_refl|]. destruct (find_forward (p_fwd x) _) as [f|]; [|apply grows_refl]. destruct (f_service f); [apply grows_refl|]. destruct (f_dest f) as [[]|]; apply grows_refl.
  - cbn [step]. destruct (consume Deq k s) as [[x s1]|] eqn:E; [|apply grows_refl]. apply consume_spec in E as (I & SX & K & ->); auto. destruct (find_forward (p_fwd x) _) as [f|] eqn:F; [|apply grows_refl]. apply find_forward_some in F as [F1 F2]. apply (grows_set _ _ _ f); auto; [now rewrite id_decrement|now apply decrement_rel].
  - cbn [step]. destruct d; [|apply grows_refl]. destruct (consume Deq k s) as [[x s1]|] eqn:E; [|apply grows_refl]. apply consume_spec in E as (I & SX & K & ->); auto. destruct (find_forward (p_fwd x) _) as [f|] eqn:F; [|apply grows_refl]. apply find_forward_some in F as [F1 F2]. apply (next_grows_f _ s _ _ f); auto; [now rewrite id_decrement|now apply decrement_rel].
  - cbn [step]. destruct (consume LookS k s) as [[x s1]|] eqn:E; [|apply grows_refl]. apply consume_spec in E as (I & SX & K & ->); auto. destruct a as [[]|]; apply grows_refl.
  - cbn [step]. destruct (consume Disc k s) as [[x s1]|] eqn:E; [|apply grows_refl]. apply consume_spec in E as (I & SX & K & ->); auto. apply grows_refl.
  - cbn [step]. destruct (consume Calling k s) as [[x s1]|] eqn:E; [|apply grows_refl]. apply consume_spec in E as (I & SX & K & ->); auto. destruct (find_forward (p_fwd x) _) as [f|]; [|apply grows_refl]. destruct (negb (code =? 0)); [apply grows_refl|]. destruct (f_dest f) as [[]|]; apply grows_refl.
  - cbn [step]. destruct (consume Enq k s) as [[x s1]|] eqn:E; [|apply grows_refl]. apply consume_spec in E as (I & SX & K & ->); auto. destruct ok; [apply grows_refl|]. destruct (find_forward (p_fwd x) _) as [f|] eqn:F; [|apply grows_refl]. apply find_forward_some in F as [F1 F2]. apply (grows_set _ _ _ f); auto using invalidate_rel.
  - cbn [step]. destruct pr; [apply grows_refl|]. destruct (consume Com k s) as [[x s1]|] eqn:E; [|apply grows_refl]. apply consume_spec in E as (I & SX & K & ->); auto. destruct (find_forward (p_fwd x) _) as [f|] eqn:F; [|apply grows_refl]. apply find_forward_some in F as [F1 F2]. apply (next_grows_f _ s _ _ f); auto; [now rewrite id_decrement|now apply decrement_rel].
  - cbn [step]. destruct (consume Rol k s) as [[x s1]|] eqn:E; [|apply grows_refl]. apply consume_spec in E as (I & SX & K & ->); auto. destruct (find_forward (p_fwd x) _) as [f|] eqn:F; [|apply grows_refl]. apply find_forward_some in F as [F1 F2]. apply (next_grows_f _ s _ _ f); auto; [now rewrite id_decrement|now apply decrement_rel].
  - apply grows_refl.
  - cbn [step]. destruct (consume Enq k s) as [[x s1]|] eqn:E; [|apply grows_refl]. apply consume_spec in E as (I & SX & K & ->); auto. destruct (find_forward (p_fwd x) s) as [f|]; [|apply grows_refl]. destruct (f_service f); apply grows_refl.
  - cbn [step]. assert (Sub : forall f, In f (queue_forwards s ++ service_forwards s) -> In f (s_forwards s)) by (intros f I; apply in_app_or in I as [I|I]; apply filter_In in I as [I _]; auto).
    apply grows_dead; auto using grows_refl. rewrite map_app. apply nodup_app; [now apply nodup_map_filter|now apply nodup_map_filter|].
    intros k I J. apply in_map_iff in I as [f [F1 I]]. apply in_map_iff in J as [g [G1 J]]. apply filter_In in I as [I I'], J as [J J']. assert (f = g) by (apply (nodup_inj f_id (s_forwards s)); auto; congruence). subst g. rewrite I' in J'. discriminate.
  - cbn [step]. match goal with |- context [comply ?x] => pose proof (comply_facts x) as X; cbv zeta in X; destruct (comply x) as [s1 ev] end. cbn [fst s_forwards] in *. destruct X as (_ & -> & _). exists (map (with_configured 0) (s_forwards s)), []. rewrite app_nil_r. split; auto. split; [|constructor]. clear. induction (s_forwards s); constructor; auto. now apply frel_same.
Qed.
Lemma grows_back i l l' f' : grows i l l' -> In f' l' -> (exists f, In f l /\ frel i f f') \/ fresh f'.
Proof.
  intros (a & b & -> & R & F) I. apply in_app_or in I as [I|I]; [left|right; rewrite Forall_forall in F; auto]. induction R as [|x y l1 l2 Q R IH]; [destruct I|]. destruct I as [->|I]; [exists x; split; auto; now left|]. destruct (IH I) as (f & Fi & Fr). exists f. split; auto. now right.
Qed.
Lemma grows_forth i l l' f : grows i l l' -> In f l -> exists f', In f' l' /\ frel i f f'.
Proof.
  intros (a & b & -> & R & F) I. clear F. induction R as [|x y l1 l2 Q R IH]; [destruct I|]. destruct I as [->|I]; [exists y; split; auto; now left|]. destruct (IH I) as (f' & Fi & Fr). exists f'. split; auto. now right.
Qed.
Lemma statics_grow i s s' a : grows i (s_forwards s) (s_forwards s') -> In a (statics s) -> In a (statics s').
Proof. intros G I. apply in_map_iff in I as [f [<- I]]. destruct (grows_forth _ _ _ _ G I) as (f' & J & E & _). rewrite <- E. now apply in_map. Qed.
