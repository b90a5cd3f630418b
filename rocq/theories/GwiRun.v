(* To make histories of the inbound that can be, for the witnesses, and to decide what the specification says of them. *)
From Coq Require Import ZArith List Bool Lia.
From Verif Require Import GwiModel GwiSpec GwiProofs.
Import ListNotations.
Local Open Scope Z_scope.

Definition kind_request_eqb (a b : request) : bool :=
  kind_eqb (q_kind a) (q_kind b) && (q_corr a =? q_corr b) && (q_name a =? q_name b) && trid_eqb (q_trid a) (q_trid b) && (q_data a =? q_data b) && Bool.eqb (q_noreply a) (q_noreply b).
Lemma trid_eqb_sound a b : trid_eqb a b = true -> a = b.
Proof. destruct a as [[g x]|], b as [[g' x']|]; cbn; try discriminate; auto. intro H. apply andb_true_iff in H as [A B]. apply Z.eqb_eq in A, B. now subst. Qed.
Lemma request_eqb_sound a b : kind_request_eqb a b = true -> a = b.
Proof.
  destruct a as [n k m t d r], b as [n' k' m' t' d' r']. unfold kind_request_eqb. cbn. intro H. repeat (apply andb_true_iff in H as [H ?]). apply Z.eqb_eq in H0 || idtac.
  assert (n = n') by (destruct n, n'; auto; discriminate). apply trid_eqb_sound in H2. apply Z.eqb_eq in H1, H3, H4. apply Bool.eqb_prop in H0. now subst.
Qed.
Definition possible_b (i : input) (s : state) (h : history) : bool :=
  match i with
  | Connected f c _ => forallb (fun n => negb (c_sock n =? f)) (s_conns s) && forallb (fun x => match x with Connected _ c' _ => negb (c' =? c) | _ => true end) (inputs h)
  | External c _ _ | Internal c _ _ | Broken c | Remove c _ => existsb (Z.eqb c) (map c_ipc (s_conns s))
  | Undelivered f q =>
      existsb (fun e => match e with ToProcess p c q' => kind_request_eqb q' q && existsb (fun x => match x with Connected f' c' _ => (f' =? f) && (c' =? c) | _ => false end) (inputs h) | _ => false end) (effects h)
  | _ => true
  end.
Fixpoint exec (l : list input) (s : state) (h : history) : option (state * history) :=
  match l with
  | [] => Some (s, h)
  | i :: r => if possible_b i s h then match step i s with Done s' ev => exec r s' (h ++ [(i, ev)]) | _ => None end else None
  end.
Lemma possible_sound i s h : possible_b i s h = true -> possible i s h.
Proof.
  destruct i as [f c sf|c on m|c ok m|f q|c|g|c ok|b|]; cbn; auto; try (intro H; apply existsb_exists in H as [x [I E]]; apply Z.eqb_eq in E; now subst).
  - intro H. apply andb_true_iff in H as [A B]. rewrite forallb_forall in A, B. split.
    + intros n I E. specialize (A n I). rewrite E, Z.eqb_refl in A. discriminate.
    + intros f' o I. specialize (B _ I). cbn in B. rewrite Z.eqb_refl in B. discriminate.
  - intro H. apply existsb_exists in H as [e [I E]]. destruct e as [|p c q'| | | | | | | | | | | | |]; try discriminate. apply andb_true_iff in E as [A B]. apply request_eqb_sound in A. subst q'. apply existsb_exists in B as [x [J X]]. destruct x as [f' c' sf| | | | | | | |]; try discriminate.
    apply andb_true_iff in X as [X Y]. apply Z.eqb_eq in X, Y. subst. exists p, c, sf. auto.
Qed.
Lemma exec_reach l s h s' h' : exec l s h = Some (s', h') -> reach s h -> reach s' h'.
Proof.
  revert s h. induction l as [|i l IH]; intros s h; cbn.
  - intro H; injection H as <- <-; auto.
  - destruct (possible_b i s h) eqn:P; [|discriminate]. destruct (step i s) as [s1 ev| |] eqn:E; try discriminate. intros H R. apply (IH _ _ H). apply (reach_step s h i s1 ev R); auto. now apply possible_sound.
Qed.
(* the history of the inputs, if it can be *)
Definition made (l : list input) : state * history := match exec l state0 [] with Some x => x | None => (state0, []) end.
Lemma exec_reach0 l x : exec l state0 [] = Some x -> reach (fst x) (snd x).
Proof. destruct x as [s h]. intro H. apply (exec_reach _ _ _ _ _ H reach_start). Qed.
Lemma exec_happens l x h i ev : exec l state0 [] = Some x -> snd x = h ++ [(i, ev)] -> happens (h ++ [(i, ev)]).
Proof. intros H E. exists (fst x). rewrite <- E. now apply (exec_reach0 l x). Qed.
Lemma exec_happens0 l x : exec l state0 [] = Some x -> happens (snd x).
Proof. intros H. exists (fst x). now apply (exec_reach0 l x). Qed.

(* ---- deciding ---- *)
Definition keys (h : history) : list Z :=
  flat_map (fun i => match i with External _ _ (XRequest q) => [q_corr q] | External _ _ (XResource _ k _ _) => [k] | Internal _ _ (ILookup k _) | Internal _ _ (IQueueLookup k _) | Internal _ _ (IBranch k _) => [k] | _ => [] end) (inputs h).
Lemma count_keys (p : Z -> input -> bool) h k : (forall i, p k i = true -> In k (match i with External _ _ (XRequest q) => [q_corr q] | External _ _ (XResource _ k _ _) => [k] | Internal _ _ (ILookup k _) | Internal _ _ (IQueueLookup k _) | Internal _ _ (IBranch k _) => [k] | _ => [] end)) ->
  In k (keys h) \/ count (p k) (inputs h) = 0%nat.
Proof.
  intro H. unfold keys. induction (inputs h) as [|i l IH]; cbn; auto. destruct (p k i) eqn:E; [left; apply in_or_app; left; now apply H|]. destruct IH as [IH|IH]; [left; apply in_or_app; auto|right; auto].
Qed.
Definition at_most_one (p : Z -> input -> bool) (h : history) : bool := forallb (fun k => (count (p k) (inputs h) <=? 1)%nat) (keys h).
Lemma at_most_one_sound p h : (forall k i, p k i = true -> In k (match i with External _ _ (XRequest q) => [q_corr q] | External _ _ (XResource _ k _ _) => [k] | Internal _ _ (ILookup k _) | Internal _ _ (IQueueLookup k _) | Internal _ _ (IBranch k _) => [k] | _ => [] end)) ->
  at_most_one p h = true -> forall k, (count (p k) (inputs h) <= 1)%nat.
Proof. intros A H k. unfold at_most_one in H. rewrite forallb_forall in H. destruct (count_keys p h k (A k)) as [X| ->]; [|lia]. now apply Nat.leb_le, H. Qed.
Definition unique_b (h : history) : bool := at_most_one opens h.
Lemma unique_sound h : unique_b h = true -> unique h.
Proof.
  intros H k. apply at_most_one_sound; auto. intros k0 i. destruct i as [| c on m | | | | | | |]; try discriminate. destruct m; try discriminate; cbn; intro X; apply Z.eqb_eq in X; auto.
Qed.
Definition once_b (h : history) : bool := at_most_one is_lookup h && at_most_one is_branch h.
Lemma once_sound h : once_b h = true -> once h.
Proof.
  intros H k. apply andb_true_iff in H as [A B]. split; apply at_most_one_sound; auto; intros k0 i; destruct i as [| | c ok m | | | | | |]; try discriminate; destruct m; try discriminate; cbn; intro X; apply Z.eqb_eq in X; auto.
Qed.
Definition answer_b (m : internal) (e : effect) : bool :=
  match m, e with
  | IBranch k t, Branch _ k' g => (k' =? k) && (g =? fst t)
  | ILookup k _, Lookup _ k' _ _ _ => k' =? k
  | IQueueLookup k _, LookupQueue _ k' _ _ => k' =? k
  | _, _ => false
  end.
Fixpoint honest_from (seen : list effect) (h : history) : bool :=
  match h with
  | [] => true
  | (i, ev) :: r => (match i with Internal _ _ m => if is_answer m then existsb (answer_b m) seen else true | _ => true end) && honest_from (seen ++ ev) r
  end.
Definition honest_b (h : history) : bool := honest_from [] h.
Lemma answer_sound m e : answer_b m e = true -> answer_of m e.
Proof. destruct m, e; cbn; try discriminate; intro H; try (now apply Z.eqb_eq in H). apply andb_true_iff in H as [A B]. apply Z.eqb_eq in A, B. auto. Qed.
Lemma honest_sound h : honest_b h = true -> honest h.
Proof.
  unfold honest_b, honest. enough (G: forall h seen, honest_from seen h = true -> forall h1 c ok m ev h2, h = h1 ++ (Internal c ok m, ev) :: h2 -> is_answer m = true -> exists e, In e (seen ++ effects h1) /\ answer_of m e) by (intro H; exact (G h [] H)).
  clear h. induction h as [|[i e0] h IH]; intros seen H h1 c ok m ev h2 E A; [now destruct h1|]. cbn in H. apply andb_true_iff in H as [H1 H2]. destruct h1 as [|x h1]; cbn in E.
  - injection E as -> -> ->. rewrite A in H1. apply existsb_exists in H1 as [e [I X]]. exists e. cbn. rewrite app_nil_r. split; auto. now apply answer_sound.
  - injection E as <- ->. destruct (IH _ H2 h1 c ok m ev h2 eq_refl A) as (e & I & X). exists e. cbn. rewrite <- app_assoc in I. auto.
Qed.
Definition given (h : history) : list (Z * Z) := flat_map (fun i => match i with Internal _ _ (IBranch _ t) => [t] | _ => [] end) (inputs h).
Lemma given_iff t h : from_tm t h <-> In t (given h).
Proof.
  unfold given. rewrite in_flat_map. split.
  - intros (k & c & ok & I). exists (Internal c ok (IBranch k t)). cbn; auto.
  - intros (i & I & X). destruct i as [| | c ok m | | | | | |]; try destruct X. destruct m; cbn in X; try tauto. destruct X as [<- | []]. exists k, c, ok. auto.
Qed.
Definition tm_consistent_b (h : history) : bool := forallb (fun a => forallb (fun b => negb (fst a =? fst b) || (snd a =? snd b)) (given h)) (given h).
Lemma tm_consistent_sound h : tm_consistent_b h = true -> tm_consistent h.
Proof.
  intros H t1 t2 A B E. apply given_iff in A, B. unfold tm_consistent_b in H. rewrite forallb_forall in H. specialize (H t1 A). rewrite forallb_forall in H. specialize (H t2 B). rewrite E, Z.eqb_refl in H. cbn in H. apply Z.eqb_eq in H. destruct t1, t2; cbn in *; now subst.
Qed.
Definition gone_b (c : ipc) (h : history) : bool := existsb (fun e => match e with Destroyed c' => c' =? c | _ => false end) (effects h).
Lemma gone_iff c h : gone c h <-> gone_b c h = true.
Proof.
  unfold gone, gone_b. rewrite existsb_exists. split.
  - intro H. exists (Destroyed c). split; auto. apply Z.eqb_refl.
  - intros (e & I & X). destruct e; try discriminate. apply Z.eqb_eq in X. now subst.
Qed.
Definition open_b (c : ipc) (h : history) : bool := existsb (fun i => match i with Connected _ c' _ => c' =? c | _ => false end) (inputs h) && negb (gone_b c h).
Lemma open_sound c h : open_b c h = true -> open c h.
Proof.
  intro H. apply andb_true_iff in H as [A B]. apply existsb_exists in A as (i & I & X). destruct i as [f c' sf| | | | | | | |]; try discriminate. apply Z.eqb_eq in X. subst c'. split; [exists f, sf; auto|]. rewrite gone_iff. intro G. rewrite G in B. discriminate.
Qed.
Lemma ended_iff q h : ended q h <-> existsb (ends (q_kind q) (q_corr q)) (inputs h) = true.
Proof. unfold ended. now rewrite existsb_exists. Qed.
Lemma not_ended q h : existsb (ends (q_kind q) (q_corr q)) (inputs h) = false -> ~ ended q h.
Proof. rewrite ended_iff. congruence. Qed.
Lemma not_gone c h : gone_b c h = false -> ~ gone c h.
Proof. rewrite gone_iff. congruence. Qed.
Definition no_branch_b (k : corr) (h : history) : bool := negb (existsb (fun e => match e with Branch _ k' _ => k' =? k | _ => false end) (effects h)).
Lemma no_branch_sound k h : no_branch_b k h = true -> no_branch k h.
Proof. unfold no_branch_b. intros H c g I. apply negb_true_iff in H. apply Bool.not_true_iff_false in H. apply H. apply existsb_exists. exists (Branch c k g). split; auto. apply Z.eqb_refl. Qed.
Lemma not_from_tm t h : ~ In t (given h) -> ~ from_tm t h.
Proof. now rewrite given_iff. Qed.
Definition good_b (h : history) : bool := unique_b h && once_b h && honest_b h && tm_consistent_b h.
Lemma good_sound h : good_b h = true -> unique h /\ once h /\ honest h /\ tm_consistent h.
Proof. intro H. repeat (apply andb_true_iff in H as [H ?]). auto using unique_sound, once_sound, honest_sound, tm_consistent_sound. Qed.
Lemma happens_firstn n h : happens h -> happens (firstn n h).
Proof.
  intros [s R]. induction R as [|s h i s' ev R IH P E]; [rewrite firstn_nil; exists state0; constructor|]. destruct (Nat.le_gt_cases n (length h)) as [L|L].
  - rewrite firstn_app. replace (n - length h)%nat with 0%nat by lia. cbn. now rewrite app_nil_r.
  - rewrite firstn_all2 by (rewrite app_length; cbn; lia). exists s'. econstructor; eauto.
Qed.
Definition over_b (g : Z) (h : history) : bool :=
  (fix go h := match h with [] => true | (i, e) :: r => (match i with Internal _ _ (IBranch _ t) => negb (fst t =? g) || existsb (fun x => match fst x with Disassociate g' => g' =? g | _ => false end) r | _ => true end) && go r end) h.
Lemma over_sound g h : over_b g h = true -> over g h.
Proof.
  intros H h1 c ok k t ev h2 -> F. induction h1 as [|[i e] h1 IH]; cbn in H; apply andb_true_iff in H as [A B]; [|now apply IH]. rewrite F, Z.eqb_refl in A. cbn in A. apply existsb_exists in A as [[i e] [I X]]. destruct i; try discriminate. cbn in X. apply Z.eqb_eq in X. subst. eauto.
Qed.
