(* To make histories of the queue manager, for the witnesses, and to decide what the specification says of them. *)
From Coq Require Import ZArith List Bool Lia.
From Verif Require Import QmgModel QmgSpec QmgProofs QmgEnt QmgQueues QmgOffers QmgLook QmgLook2 QmgAnswers QmgTasks QmgConform QmgConform2 QmgConform3 QmgConform4.
Import ListNotations.
Local Open Scope Z_scope.

Fixpoint nodup_b (l : list Z) : bool := match l with [] => true | x :: r => negb (existsb (Z.eqb x) r) && nodup_b r end.
Lemma existsb_eqb x l : existsb (Z.eqb x) l = true <-> In x l.
Proof. rewrite existsb_exists. split; [intros (y & J & H); apply Z.eqb_eq in H; now subst|intro J; exists x; split; [auto|apply Z.eqb_refl]]. Qed.
Lemma nodup_sound l : nodup_b l = true -> NoDup l.
Proof. induction l as [|x l IH]; cbn; [constructor|]. intro H. apply andb_prop in H as [A B]. constructor; auto. intro J. apply existsb_eqb in J. rewrite J in A. discriminate. Qed.
Definition all_in (h : history) (p : input -> bool) : bool := forallb p (inputs h).
Lemma all_in_sound h p i : all_in h p = true -> In i (inputs h) -> p i = true.
Proof. unfold all_in. rewrite forallb_forall. auto. Qed.
Definition spawned_b (f : bool) (pid : Z) (h : history) : bool := existsb (fun e => match e with Spawn g _ p => Bool.eqb g f && (p =? pid) | _ => false end) (effects h).
Lemma spawned_sound f pid h : spawned_b f pid h = true -> exists c, In (Spawn f c pid) (effects h).
Proof. unfold spawned_b. intro H. apply existsb_exists in H as (e & J & H). destruct e; try discriminate. apply andb_prop in H as [A B]. apply eqb_prop in A. apply Z.eqb_eq in B. subst. eauto. Qed.
Definition no_connect (ipc : Z) (h : history) : bool := all_in h (fun j => match j with Connect _ _ q => negb (q =? ipc) | _ => true end).
Definition possible_b (h : history) (i : input) : bool :=
  match i with
  | Begin m => match h with [] => nodup_b (map c_alias (m_groups m)) && nodup_b (map c_alias (m_forwards m)) | _ => false end
  | _ =>
    match h with [] => false | _ => true end &&
    match i with
    | Update _ k m => (nodup_b (map c_alias (m_groups m)) && nodup_b (map c_alias (m_forwards m))) && all_in h (fun j => match j with Update _ k' _ => negb (k' =? k) | _ => true end)
    | Lookup l => all_in h (fun j => match j with Lookup l' => negb (l_corr l' =? l_corr l) | _ => true end) && match l_req l with External => negb (l_wait l) | _ => true end
    | Advertise pid ipc _ _ _ => (pid <? 0) && (no_connect ipc h && all_in h (fun j => match j with Advertise p q _ _ _ => negb (q =? ipc) || (p =? pid) | _ => true end))
    | Order ipc _ | Reset ipc => no_connect ipc h
    | Connect fwd pid ipc => spawned_b fwd pid h && (negb (ipc =? 0) && (all_in h (fun j => match j with Connect _ p q => negb (p =? pid) && negb (q =? ipc) | Advertise _ q _ _ _ => negb (q =? ipc) | _ => true end)))
    | Configured fwd pid _ => existsb (fun j => match j with Connect g p _ => Bool.eqb g fwd && (p =? pid) | _ => false end) (inputs h)
    | Exit pid => spawned_b true pid h || spawned_b false pid h
    | Dead pid => (pid <? 0) || existsb (fun j => match j with Exit p => p =? pid | _ => false end) (inputs h)
    | _ => true
    end
  end.
Lemma no_connect_sound ipc h f p : no_connect ipc h = true -> ~ In (Connect f p ipc) (inputs h).
Proof. intros H J. apply (all_in_sound _ _ _ H) in J. cbn in J. rewrite Z.eqb_refl in J. discriminate. Qed.
Lemma possible_sound h i : possible_b h i = true -> possible h i.
Proof.
  unfold possible_b, possible. destruct i as [m|l|p k|pid ipc n add rem|ipc n|ipc|k|p k|p k int names|f pid ipc|f pid qs|pid|pid|ipc|p k m| | |ipc]; intro H;
  try (apply andb_prop in H as [H0 H]; split; [destruct h; [discriminate|discriminate]|]); try exact Logic.I.
  - destruct h; [|discriminate]. apply andb_prop in H as [A B]. split; [auto|]. split; now apply nodup_sound.
  - apply andb_prop in H as [A B]. split.
    + intros l' J E. apply (all_in_sound _ _ _ A) in J. cbn in J. rewrite E, Z.eqb_refl in J. discriminate.
    + intro E. rewrite E in B. now apply negb_true_iff.
  - apply andb_prop in H as [A H]. apply andb_prop in H as [B C]. split; [now apply Z.ltb_lt|]. split; [intros f pid'; now apply no_connect_sound|]. intros p o a r J. apply (all_in_sound _ _ _ C) in J. cbn in J. rewrite Z.eqb_refl in J. cbn in J. now apply Z.eqb_eq.
  - intros f pid'. now apply no_connect_sound.
  - intros f pid'. now apply no_connect_sound.
  - apply andb_prop in H as [A H]. apply andb_prop in H as [B C]. split; [now apply spawned_sound|]. split; [|split; [|split]].
    + intros g p J. apply (all_in_sound _ _ _ C) in J. cbn in J. rewrite Z.eqb_refl in J. discriminate.
    + apply negb_true_iff in B. now apply Z.eqb_neq.
    + intros g p J. apply (all_in_sound _ _ _ C) in J. cbn in J. rewrite Z.eqb_refl, andb_false_r in J. discriminate.
    + intros p o a r J. apply (all_in_sound _ _ _ C) in J. cbn in J. rewrite Z.eqb_refl in J. discriminate.
  - apply existsb_exists in H as (j & J & H). destruct j; try discriminate. apply andb_prop in H as [A B]. apply eqb_prop in A. apply Z.eqb_eq in B. subst. eauto.
  - apply orb_prop in H as [H|H]; apply spawned_sound in H as (c & H); eauto.
  - apply orb_prop in H as [H|H]; [left; now apply Z.ltb_lt|right]. apply existsb_exists in H as (j & J & H). destruct j; try discriminate. apply Z.eqb_eq in H. now subst.
  - apply andb_prop in H as [A B]. apply andb_prop in A as [A1 A2]. split; [now apply nodup_sound|]. split; [now apply nodup_sound|]. intros p' m' J. apply (all_in_sound _ _ _ B) in J. cbn in J. rewrite Z.eqb_refl in J. discriminate.
Qed.
Fixpoint exec (l : list input) (s : state) (h : history) : option (state * history) :=
  match l with
  | [] => Some (s, h)
  | i :: r => if possible_b h i then let x := step i s in exec r (fst x) (h ++ [(i, snd x)]) else None
  end.
Lemma exec_reach l : forall s h s' h', exec l s h = Some (s', h') -> reach s h -> reach s' h'.
Proof.
  induction l as [|i l IH]; intros s h s' h'; cbn [exec].
  - intro H; injection H as <- <-; auto.
  - destruct (possible_b h i) eqn:P; [|discriminate]. cbv zeta. intros H R. apply (IH _ _ _ _ H). apply reach_step; auto. now apply possible_sound.
Qed.
Definition made (l : list input) : state * history := match exec l state0 [] with Some x => x | None => (state0, []) end.
Lemma exec_reach0 l x : exec l state0 [] = Some x -> reach (fst x) (snd x).
Proof. destruct x as [s h]. intro H. apply (exec_reach _ _ _ _ _ H reach_start). Qed.
Lemma exec_prefix l : forall n s h s' h', exec l s h = Some (s', h') -> exists t s2, h' = h ++ t /\ exec (firstn n l) s h = Some (s2, h ++ firstn n t).
Proof.
  induction l as [|i l IH]; intros n s h s' h'; cbn [exec].
  - intro H; injection H as <- <-. exists [], s. rewrite !firstn_nil, !app_nil_r. auto.
  - destruct (possible_b h i) eqn:P; [|discriminate]. cbv zeta. intros H. destruct n as [|n].
    + destruct (IH O _ _ _ _ H) as (t & s2 & -> & _). exists ((i, snd (step i s)) :: t), s. cbn [firstn exec]. rewrite app_nil_r, <- app_assoc. auto.
    + destruct (IH n _ _ _ _ H) as (t & s2 & -> & E). exists ((i, snd (step i s)) :: t), s2. cbn [firstn exec]. rewrite P. cbv zeta. rewrite E, <- !app_assoc. auto.
Qed.
Lemma exec_reach_upto l x n : exec l state0 [] = Some x -> reach (fst (made (firstn n l))) (firstn n (snd x)).
Proof.
  destruct x as [s h]. intro H. destruct (exec_prefix l n _ _ _ _ H) as (t & s2 & -> & E). cbn [app snd] in *. unfold made. rewrite E. apply (exec_reach0 _ _ E).
Qed.

(* ---- what is offered ---- *)
Definition exited_b (pid : Z) (h : history) : bool := existsb (fun j => match j with Exit p | Dead p => p =? pid | _ => false end) (inputs h).
Lemma exited_iff pid h : exited_b pid h = true <-> exited pid h.
Proof.
  unfold exited_b, exited. rewrite existsb_exists. split.
  - intros (j & J & H). destruct j; try discriminate; apply Z.eqb_eq in H; subst; auto.
  - intros [J|J]; eexists; (split; [exact J|apply Z.eqb_refl]).
Qed.
Definition told_group (h : history) (pid : Z) (qs : list (Z * Z)) : list inst :=
  if exited_b pid h then [] else flat_map (fun e => match e with Spawn false c p => if p =? pid then
    flat_map (fun j => match j with Connect false q ipc => if q =? pid then map (fun n => Inst (fst n) pid ipc (snd n) 0 (fst (enable_of c (fst n))) (snd (enable_of c (fst n)))) qs else [] | _ => [] end) (inputs h) else [] | _ => [] end) (effects h).
Definition fresh (h : history) (i : input) : list inst :=
  match i with
  | Configured false pid qs => told_group h pid qs
  | Advertise pid ipc n add rem => flat_map (fun q => if existsb (Z.eqb (fst q)) rem then [] else [Inst (fst q) pid ipc remote_id (n + 1) (fst (snd q)) (snd (snd q))]) add
  | _ => []
  end.
Fixpoint offered (r : history) : list inst := match r with [] => [] | (i, ev) :: r' => fresh (rev r') i ++ map (changed i) (filter (fun x => negb (withdraws i x)) (offered r')) end.
Lemma offers_in x h : offers x h -> In x (offered (rev h)).
Proof.
  induction 1 as [h ev pid ipc c qs name id A B C D|h ev pid ipc n add rem name e d A B|h x i ev O IH W]; rewrite rev_app_distr; cbn [rev app offered]; rewrite ?rev_involutive; apply in_or_app.
  - left. cbn. unfold told_group. destruct (exited_b pid h) eqn:X; [apply exited_iff in X; contradiction|]. apply in_flat_map. eexists. split; [exact A|]. cbn. rewrite Z.eqb_refl. apply in_flat_map. eexists. split; [exact B|]. cbn. rewrite Z.eqb_refl. apply in_map_iff. exists (name, id). auto.
  - left. cbn. apply in_flat_map. eexists. split; [exact A|]. cbn. destruct (existsb _ _) eqn:X; [apply existsb_eqb in X; contradiction|]. now left.
  - right. apply in_map. apply filter_In. split; [exact IH|]. now rewrite W.
Qed.
Lemma in_offered r : forall x, In x (offered r) -> offers x (rev r).
Proof.
  induction r as [|[i ev] r IH]; intros x J; [destruct J|]. cbn [offered rev] in *. apply in_app_iff in J as [J|J].
  - destruct i; try destruct J.
    + cbn in J. apply in_flat_map in J as ([name [e d]] & A & B). cbn [fst snd] in B. destruct (existsb (Z.eqb name) remove) eqn:X; [destruct B|]. destruct B as [<-|[]]. apply offers_remote; auto. intro K. apply existsb_eqb in K. congruence.
    + destruct fwd; [destruct J|]. cbn in J. unfold told_group in J. destruct (exited_b pid (rev r)) eqn:X; [destruct J|]. apply in_flat_map in J as (e & A & B). destruct e; try destruct B. destruct fwd; [destruct B|]. destruct (pid0 =? pid) eqn:Y; [|destruct B]. apply Z.eqb_eq in Y. subst.
      apply in_flat_map in B as (j & B & C). destruct j; try destruct C. destruct fwd; [destruct C|]. destruct (pid0 =? pid) eqn:Y; [|destruct C]. apply Z.eqb_eq in Y. subst. apply in_map_iff in C as ([name id] & <- & C). cbn [fst snd]. apply offers_group; auto. intro K. apply exited_iff in K. congruence.
  - apply in_map_iff in J as (y & <- & J). apply filter_In in J as [J W]. apply negb_true_iff in W. apply offers_since; auto.
Qed.
Lemma offers_iff x h : offers x h <-> In x (offered (rev h)).
Proof. split; [apply offers_in|]. intro J. apply in_offered in J. now rewrite rev_involutive in J. Qed.
Fixpoint once_rev (r : history) : bool :=
  match r with
  | [] => true
  | (i, _) :: r' => once_rev r' && match i with Advertise _ ipc _ add _ => nodup_b (map fst add) && forallb (fun x => negb (i_ipc x =? ipc) || negb (existsb (Z.eqb (i_name x)) (map fst add))) (offered r') | _ => true end
  end.
Lemma once_rev_sound r : once_rev r = true -> once (rev r).
Proof.
  induction r as [|[i ev] r IH]; cbn [once_rev rev]; intro H; [constructor|]. apply andb_prop in H as [A B]. apply once_more; auto. intros pid ipc n add rem ->. apply andb_prop in B as [B C]. split; [now apply nodup_sound|]. intros x O E J. apply offers_in in O. rewrite rev_involutive in O. rewrite forallb_forall in C. specialize (C x O). rewrite E, Z.eqb_refl in C. cbn in C. apply existsb_eqb in J. rewrite J in C. discriminate.
Qed.
Lemma once_sound h : once_rev (rev h) = true -> once h.
Proof. intro H. apply once_rev_sound in H. now rewrite rev_involutive in H. Qed.
Lemma not_lost p h : all_in h (fun j => match j with Lost q => negb (q =? p) | _ => true end) = true -> ~ lost p h.
Proof. intros H J. apply (all_in_sound _ _ _ H) in J. cbn in J. rewrite Z.eqb_refl in J. discriminate. Qed.
Lemma not_down h : all_in h (fun j => match j with Shutdown => false | _ => true end) = true -> ~ down h.
Proof. intros H J. apply (all_in_sound _ _ _ H) in J. discriminate. Qed.
Lemma waits s h l : reach s h -> In l (s_lookups s) -> waiting l h.
Proof. intro R. apply (v_in _ _ (reach_linv _ _ R)). Qed.

(* ---- the groups ---- *)
Definition dead_b (pid : Z) (h : history) : bool := existsb (fun j => match j with Dead p => p =? pid | _ => false end) (inputs h).
Definition complete_b (h : history) (e : effect) : bool :=
  match e with
  | Spawn f _ pid => existsb (fun j => match j with Connect g p _ => Bool.eqb g f && (p =? pid) | _ => false end) (inputs h) || dead_b pid h
  | Stop _ pid _ => dead_b pid h
  | _ => true
  end.
Lemma dead_sound pid h : dead_b pid h = true -> In (Dead pid) (inputs h).
Proof. unfold dead_b. intro H. apply existsb_exists in H as (j & J & H). destruct j; try discriminate. apply Z.eqb_eq in H. now subst. Qed.
Definition settled_b (h : history) : bool := forallb (complete_b h) (effects h).
Lemma settled_sound h : settled_b h = true -> settled h.
Proof.
  unfold settled_b. rewrite forallb_forall. intros H e J. specialize (H e J). destruct e; cbn in *; auto.
  - apply orb_prop in H as [H|H]; [left|right; now apply dead_sound]. apply existsb_exists in H as (j & K & H). destruct j; try discriminate. apply andb_prop in H as [A B]. apply eqb_prop in A. apply Z.eqb_eq in B. subst. eauto.
  - now apply dead_sound.
Qed.
Definition answered_b (h : history) : bool := all_in h (fun j => match j with Update p k _ => existsb (is_upd p k) (effects h) | _ => true end).
Lemma answered_sound h : answered_b h = true -> answered h.
Proof. intros H p k m J. apply (all_in_sound _ _ _ H) in J. cbn in J. apply existsb_exists in J as (e & J & X). destruct e; try discriminate. cbn in X. apply andb_prop in X as [A B]. apply Z.eqb_eq in A, B. now subst. Qed.
Fixpoint wanted (r : history) : option model :=
  match r with
  | [] => None
  | (i, _) :: r' => match i with
                    | Begin m => match r' with [] => Some m | _ => None end
                    | Update _ _ m => if settled_b (rev r') && answered_b (rev r') then Some m else None
                    | Shutdown => if settled_b (rev r') && answered_b (rev r') then Some (Model [] []) else None
                    | _ => wanted r'
                    end
  end.
Lemma wanted_sound r m : wanted r = Some m -> wants m (rev r).
Proof.
  induction r as [|[i ev] r IH]; cbn [wanted rev]; [discriminate|]. intro H. destruct i; try (apply wants_since; auto; fail).
  - destruct r; [|discriminate]. injection H as ->. constructor.
  - destruct (_ && _) eqn:X; [|discriminate]. injection H as ->. apply andb_prop in X as [A B]. apply wants_update; [now apply settled_sound|now apply answered_sound].
  - destruct (_ && _) eqn:X; [|discriminate]. injection H as <-. apply andb_prop in X as [A B]. apply wants_shutdown; [auto|now apply settled_sound|now apply answered_sound].
Qed.
Lemma wants_sound h m : wanted (rev h) = Some m -> wants m h.
Proof. intro H. apply wanted_sound in H. now rewrite rev_involutive in H. Qed.
Fixpoint calm_rev (r : history) : bool :=
  match r with
  | [] => false
  | (i, _) :: r' => match i, r' with Begin _, [] => true | _, _ => calm_rev r' && (if asks i then settled_b (rev r') && answered_b (rev r') else true) end
  end.
Lemma calm_rev_sound r : calm_rev r = true -> calm (rev r).
Proof.
  induction r as [|[i ev] r IH]; cbn [calm_rev rev]; [discriminate|]. intro H.
  assert (X : (exists m, i = Begin m /\ r = []) \/ calm_rev r && (if asks i then settled_b (rev r) && answered_b (rev r) else true) = true) by (destruct i, r; eauto). destruct X as [(m & -> & ->)|X]; [constructor|].
  apply andb_prop in X as [A B]. destruct (asks i) eqn:Q; [apply andb_prop in B as [B C]; apply calm_ask; auto; [now apply settled_sound|now apply answered_sound]|now apply calm_since; auto].
Qed.
Lemma calm_sound h : calm_rev (rev h) = true -> calm h.
Proof. intro H. apply calm_rev_sound in H. now rewrite rev_involutive in H. Qed.
Lemma live_sound f c pid h : In (Spawn f c pid) (effects h) -> exited_b pid h = false -> live f c pid h.
Proof. intros A B. split; [auto|]. intro X. apply exited_iff in X. congruence. Qed.
Fixpoint unrep (r : history) : list (bool * Z) :=
  match r with
  | [] => []
  | (i, ev) :: r' => flat_map (fun e => match e with Configure f pid _ _ => [(f, pid)] | _ => [] end) ev
      ++ filter (fun x => match i with Configured f pid _ => negb (Bool.eqb f (fst x) && (pid =? snd x)) | Dead pid => negb (pid =? snd x) | _ => true end) (unrep r')
  end.
Lemma unreplied_in f pid h : unreplied f pid h -> In (f, pid) (unrep (rev h)).
Proof.
  induction 1 as [h i ev ipc c J|h i ev U IH N1 N2]; rewrite rev_app_distr; cbn [rev app unrep]; apply in_or_app.
  - left. apply in_flat_map. eexists. split; [exact J|]. now left.
  - right. apply filter_In. split; [auto|]. destruct i; auto; cbn [fst snd]; apply negb_true_iff.
    + destruct (Bool.eqb fwd f) eqn:X; auto. apply eqb_prop in X. cbn. apply Z.eqb_neq. intros ->. subst. eapply N1. reflexivity.
    + apply Z.eqb_neq. intros ->. now apply N2.
Qed.
Lemma none_unreplied h : unrep (rev h) = [] -> forall f pid, ~ unreplied f pid h.
Proof. intros E f pid U. apply unreplied_in in U. rewrite E in U. destruct U. Qed.
