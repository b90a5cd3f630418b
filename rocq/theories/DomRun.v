(* To make histories of the domain manager, for the witnesses, and to decide what the specification says of them. *)
From Coq Require Import ZArith List Bool Lia.
From Verif Require Import DomModel DomSpec DomSeq.
Import ListNotations.
Local Open Scope Z_scope.

Definition all_in (h : history) (p : input -> bool) : bool := forallb p (inputs h).
Lemma all_in_sound h p i : all_in h p = true -> In i (inputs h) -> p i = true.
Proof. unfold all_in. rewrite forallb_forall. auto. Qed.
Fixpoint unique (l : list Z) : bool := match l with [] => true | x :: r => negb (existsb (Z.eqb x) r) && unique r end.
Lemma unique_sound l : unique l = true -> NoDup l.
Proof. induction l as [|x r IH]; cbn; [constructor|]. intro H. apply andb_prop in H as [A B]. constructor; [|auto]. intro J. apply negb_true_iff in A. assert (existsb (Z.eqb x) r = true) by (apply existsb_exists; exists x; rewrite Z.eqb_refl; auto). congruence. Qed.
Definition self_b (p m : Z) (e : ent) : bool :=
  (e_id e =? m) && match e_kind e with Server => true | Exec => false end && match e_inst e with [Inst (Some q) (Some _) PRun] => q =? p | _ => false end.
Lemma self_sound p m e : self_b p m e = true -> is_self p m e.
Proof.
  unfold self_b. intro H. apply andb_prop in H as [H C]. apply andb_prop in H as [A B]. apply Z.eqb_eq in A. split; [auto|]. destruct (e_kind e); [|discriminate]. split; [auto|].
  destruct (e_inst e) as [|[[x|] [y|] []] []]; try discriminate. apply Z.eqb_eq in C. subst x. eauto.
Qed.
Definition idle_b (m : Z) (e : ent) : bool :=
  negb (e_id e =? m) && forallb (fun i => match i with Inst None None PRun => e_on e | Inst None None PDis => negb (e_on e) | _ => false end) (e_inst e).
Lemma idle_sound m e : idle_b m e = true -> idle m e.
Proof.
  unfold idle_b. intro H. apply andb_prop in H as [A B]. split; [intro E; rewrite E, Z.eqb_refl in A; discriminate|]. intros i J. rewrite forallb_forall in B. apply B in J. destruct i as [[x|] [y|] []]; try discriminate; destruct (e_on e); auto; discriminate.
Qed.
Definition srv (e : ent) : bool := match e_kind e with Server => true | Exec => false end.
Definition conf_b (p : Z) (gs : list group) (m : Z) (es : list ent) : bool :=
  let n := length (filter srv es) in
  unique (map g_id gs) && unique (map e_id es) && existsb (self_b p m) es && forallb (fun e => self_b p m e || idle_b m e) es && forallb srv (firstn n es) && forallb (fun e => negb (srv e)) (skipn n es).
Lemma conf_sound p gs m es : conf_b p gs m es = true -> configured p gs m es.
Proof.
  unfold conf_b. cbv zeta. intro H. apply andb_prop in H as [H F]. apply andb_prop in H as [H E]. apply andb_prop in H as [H D]. apply andb_prop in H as [H C]. apply andb_prop in H as [A B]. rewrite forallb_forall in D, E, F.
  split; [now apply unique_sound|]. split; [now apply unique_sound|]. split; [apply existsb_exists in C as (e & J & X); exists e; split; [auto|now apply self_sound]|]. split.
  - intros e J. apply D in J. apply orb_prop in J as [J|J]; [left; now apply self_sound|right; now apply idle_sound].
  - exists (length (filter srv es)). split; intros e J; [apply E in J|apply F in J]; unfold srv in J; destruct (e_kind e); auto; discriminate.
Qed.
Definition spawns_it (p : Z) (e : effect) : bool := match e with Spawned _ q => q =? p | _ => false end.
Definition leaves (p : Z) (i : input) : bool := match i with Exit q => q =? p | _ => false end.
Fixpoint around_b (p : Z) (r : history) : bool :=
  match r with
  | [] => false
  | (i, ev) :: r' => existsb (spawns_it p) ev || match i with Connect c => c_pid c =? p | Begin q _ _ _ => q =? p | _ => false end || (around_b p r' && negb (leaves p i))
  end.
Lemma around_in p h : around p h -> around_b p (rev h) = true.
Proof.
  induction 1 as [h i ev id A|h c ev A|h ev gs m es|h i ev A IH N]; rewrite rev_app_distr; cbn [rev app around_b].
  - rewrite (proj2 (existsb_exists _ _)); [auto|]. exists (Spawned id p). cbn. rewrite Z.eqb_refl. auto.
  - subst p. rewrite Z.eqb_refl, orb_true_r. auto.
  - rewrite Z.eqb_refl, orb_true_r. auto.
  - rewrite IH. assert (leaves p i = false) as ->; [|now rewrite orb_true_r]. destruct i; auto. cbn. destruct (pid =? p) eqn:E; [|auto]. apply Z.eqb_eq in E. subst. congruence.
Qed.
Definition possible_b (h : history) (o : list (option Z)) (i : input) : bool :=
  match i with
  | Begin p gs m es => match h with [] => true | _ => false end && conf_b p gs m es
  | Exit p => match h with [] => false | _ => true end && all_in h (fun j => match j with Begin q _ _ _ => negb (q =? p) | _ => true end)
  | _ => match h with [] => false | _ => true end
  end && unique (flat_map (fun x => match x with Some p => [p] | None => [] end) o) && forallb (fun x => match x with Some p => negb (around_b p ((i, []) :: rev h)) | None => true end) o.
Lemma possible_sound h o i : possible_b h o i = true -> possible h o i.
Proof.
  unfold possible_b. intro H. apply andb_prop in H as [H C]. apply andb_prop in H as [A B]. split; [|split].
  - destruct i; try (destruct h; [discriminate|discriminate]).
    + apply andb_prop in A as [A A']. split; [destruct h; [auto|discriminate]|]. now apply conf_sound.
    + apply andb_prop in A as [A A']. split; [destruct h; discriminate|]. intros gs m es J. apply (all_in_sound _ _ _ A') in J. cbn in J. rewrite Z.eqb_refl in J. discriminate.
  - now apply unique_sound.
  - intros p J K. rewrite forallb_forall in C. apply C in J. apply around_in in K. rewrite rev_app_distr in K. cbn [rev app] in K. rewrite K in J. discriminate.
Qed.
Fixpoint exec (l : list (input * list (option Z))) (d : dom) (h : history) : option (dom * history) :=
  match l with
  | [] => Some (d, h)
  | (i, o) :: r => if possible_b h o i then match step o i d with Some (d', ev) => exec r d' (h ++ [(i, ev)]) | None => None end else None
  end.
Lemma exec_reach l : forall d h d' h', exec l d h = Some (d', h') -> reach d h -> reach d' h'.
Proof.
  induction l as [|[i o] l IH]; intros d h d' h'; cbn [exec].
  - intro H; injection H as <- <-; auto.
  - destruct (possible_b h o i) eqn:P; [|discriminate]. destruct (step o i d) as [[d1 ev]|] eqn:S; [|discriminate]. intros H R. apply (IH _ _ _ _ H). apply (reach_step d h o i d1 ev R); auto. now apply possible_sound.
Qed.
Definition made (l : list (input * list (option Z))) : dom * history := match exec l dom0 [] with Some x => x | None => (dom0, []) end.
Lemma exec_reach0 l x : exec l dom0 [] = Some x -> reach (fst x) (snd x).
Proof. destruct x as [d h]. intro H. apply (exec_reach _ _ _ _ _ H reach_start). Qed.
Lemma exec_prefix l : forall n d h d' h', exec l d h = Some (d', h') -> exists t d2, h' = h ++ t /\ exec (firstn n l) d h = Some (d2, h ++ firstn n t).
Proof.
  induction l as [|[i o] l IH]; intros n d h d' h'; cbn [exec].
  - intro H; injection H as <- <-. exists [], d. rewrite !firstn_nil, !app_nil_r. auto.
  - destruct (possible_b h o i) eqn:P; [|discriminate]. destruct (step o i d) as [[d1 ev]|] eqn:S; [|discriminate]. intros H. destruct n as [|n].
    + destruct (IH O _ _ _ _ H) as (t & s2 & -> & _). exists ((i, ev) :: t), d. cbn [firstn exec]. rewrite app_nil_r, <- app_assoc. auto.
    + destruct (IH n _ _ _ _ H) as (t & s2 & -> & E). exists ((i, ev) :: t), s2. cbn [firstn exec]. rewrite P, S, E, <- !app_assoc. auto.
Qed.
Lemma exec_reach_upto l x n : exec l dom0 [] = Some x -> reach (fst (made (firstn n l))) (firstn n (snd x)).
Proof. destruct x as [d h]. intro H. destruct (exec_prefix l n _ _ _ _ H) as (t & s2 & -> & E). cbn [app snd] in *. unfold made. rewrite E. apply (exec_reach0 _ _ E). Qed.

(* ---- to decide what the specification says ---- *)
Fixpoint holds_b (s p q : Z) (r : history) : bool :=
  match r with
  | [] => false
  | (i, ev) :: r' => match i with Connect c => (c_pid c =? p) && (c_ipc c =? q) && match c_sing c with Some x => x =? s | None => false end && existsb (fun e => match e with Answer a b true => (a =? p) && (b =? q) | _ => false end) ev | _ => false end
      || (holds_b s p q r' && negb (leaves p i))
  end.
Lemma holds_in s p q h : holds s p q h <-> holds_b s p q (rev h) = true.
Proof.
  split.
  - induction 1 as [h c ev A B C D|h i ev A IH N]; rewrite rev_app_distr; cbn [rev app holds_b].
    + rewrite A, B, C, !Z.eqb_refl. cbn [andb]. rewrite (proj2 (existsb_exists _ _)); [auto|]. exists (Answer p q true). rewrite !Z.eqb_refl. auto.
    + rewrite IH. assert (leaves p i = false) as ->; [|now rewrite orb_true_r]. destruct i; auto. cbn. destruct (pid =? p) eqn:E; [|auto]. apply Z.eqb_eq in E. subst. congruence.
  - intro H. rewrite <- (rev_involutive h). revert H. generalize (rev h) as r. induction r as [|[i ev] r IH]; cbn [rev holds_b]; [discriminate|]. intro H. apply orb_prop in H as [H|H].
    + destruct i; try discriminate. apply andb_prop in H as [H D]. apply andb_prop in H as [H C]. apply andb_prop in H as [A B]. apply Z.eqb_eq in A, B. destruct (c_sing c) as [x|] eqn:E; [|discriminate]. apply Z.eqb_eq in C. subst x. apply existsb_exists in D as ([] & J & D); try discriminate. destruct ok; [|discriminate]. apply andb_prop in D as [D1 D2]. apply Z.eqb_eq in D1, D2. subst. apply holds_here; auto.
    + apply andb_prop in H as [A B]. apply holds_still; [auto|]. intros ->. cbn in B. rewrite Z.eqb_refl in B. discriminate.
Qed.
Fixpoint child_b (id p : Z) (r : history) : bool :=
  match r with [] => false | (i, ev) :: r' => existsb (fun e => match e with Spawned x y => (x =? id) && (y =? p) | _ => false end) ev || (child_b id p r' && negb (leaves p i)) end.
Lemma child_in id p h : child_b id p (rev h) = true -> child id p h.
Proof.
  intro H. rewrite <- (rev_involutive h). revert H. generalize (rev h) as r. induction r as [|[i ev] r IH]; cbn [rev child_b]; [discriminate|]. intro H. apply orb_prop in H as [H|H].
  - apply existsb_exists in H as ([] & J & H); try discriminate. apply andb_prop in H as [A B]. apply Z.eqb_eq in A, B. subst. eapply child_born; eauto.
  - apply andb_prop in H as [A B]. apply child_still; [auto|]. intros ->. cbn in B. rewrite Z.eqb_refl in B. discriminate.
Qed.
Lemma not_around p h : around_b p (rev h) = false -> ~ around p h.
Proof. intros E A. apply around_in in A. congruence. Qed.
Lemma not_down h : all_in h (fun j => match j with Terminate | Fatal => false | _ => true end) = true -> ~ down h.
Proof. intros H [J|(a & ev & b & -> & _)]; [apply (all_in_sound _ _ _ H) in J; discriminate|]. assert (J : In Fatal (inputs (a ++ (Fatal, ev) :: b))) by (unfold inputs; rewrite map_app; apply in_or_app; right; cbn; auto). apply (all_in_sound _ _ _ H) in J. discriminate. Qed.
Fixpoint holders (s : Z) (r : history) : list (Z * Z) :=
  match r with
  | [] => []
  | (i, ev) :: r' => match i with Connect c => match c_sing c with Some x => if x =? s then flat_map (fun e => match e with Answer a b true => [(a, b)] | _ => [] end) ev else [] | None => [] end | _ => [] end
      ++ filter (fun x => negb (leaves (fst x) i)) (holders s r')
  end.
Lemma holds_holders s p q h : holds s p q h -> In (p, q) (holders s (rev h)).
Proof.
  induction 1 as [h c ev A B C D|h i ev A IH N]; rewrite rev_app_distr; cbn [rev app holders]; apply in_or_app.
  - left. rewrite C, Z.eqb_refl. apply in_flat_map. exists (Answer p q true). cbn. auto.
  - right. apply filter_In. split; [auto|]. cbn [fst]. destruct i; auto. cbn. destruct (pid =? p) eqn:E; [|auto]. apply Z.eqb_eq in E. subst. congruence.
Qed.
Lemma nobody_holds s h : holders s (rev h) = [] -> forall p q, ~ holds s p q h.
Proof. intros E p q H. apply holds_holders in H. now rewrite E in H. Qed.
Fixpoint arounds (r : history) : list Z :=
  match r with
  | [] => []
  | (i, ev) :: r' => flat_map (fun e => match e with Spawned _ q => [q] | _ => [] end) ev ++ match i with Connect c => [c_pid c] | Begin q _ _ _ => [q] | _ => [] end ++ filter (fun q => negb (leaves q i)) (arounds r')
  end.
Lemma around_arounds p h : around p h -> In p (arounds (rev h)).
Proof.
  induction 1 as [h i ev id A|h c ev A|h ev gs m es|h i ev A IH N]; rewrite rev_app_distr; cbn [rev app arounds]; apply in_or_app.
  - left. apply in_flat_map. exists (Spawned id p). cbn. auto.
  - right. left. auto.
  - right. left. auto.
  - right. apply in_or_app. right. apply filter_In. split; [auto|]. destruct i; auto. cbn. destruct (pid =? p) eqn:E; [|auto]. apply Z.eqb_eq in E. subst. congruence.
Qed.
Lemma only_around p h : forallb (Z.eqb p) (arounds (rev h)) = true -> forall q, around q h -> q = p.
Proof. intros E q A. apply around_arounds in A. rewrite forallb_forall in E. apply E in A. symmetry. now apply Z.eqb_eq. Qed.
(* connects_once: the pids that have connected, and haven't ended since *)
Fixpoint once_b (l : list input) (seen : list Z) : bool :=
  match l with
  | [] => true
  | Connect c :: r => negb (existsb (Z.eqb (c_pid c)) seen) && once_b r (c_pid c :: seen)
  | Exit p :: r => once_b r (filter (fun q => negb (q =? p)) seen)
  | _ :: r => once_b r seen
  end.
Lemma once_seen l : forall seen, once_b l seen = true -> forall p, In p seen -> forall b c r, l = b ++ Connect c :: r -> c_pid c = p -> In (Exit p) b.
Proof.
  induction l as [|i l IH]; intros seen H p J b c r E P; [destruct b; discriminate|]. destruct b as [|j b].
  - injection E as -> ->. cbn in H. apply andb_prop in H as [A _]. apply negb_true_iff in A. assert (existsb (Z.eqb (c_pid c)) seen = true) by (apply existsb_exists; exists p; subst p; rewrite Z.eqb_refl; auto). congruence.
  - injection E as <- ->. destruct i; cbn in H; try (right; eapply (IH seen); eauto; fail).
    + destruct (Z.eq_dec pid p) as [->|N]; [now left|]. right. eapply (IH _ H p); eauto. apply filter_In. split; [auto|]. apply negb_true_iff, Z.eqb_neq. congruence.
    + right. apply andb_prop in H as [_ H]. eapply (IH _ H p); eauto. now right.
Qed.
Lemma once_all l : forall seen, once_b l seen = true -> forall a c b c' r, l = a ++ Connect c :: b ++ Connect c' :: r -> c_pid c = c_pid c' -> In (Exit (c_pid c)) b.
Proof.
  induction l as [|i l IH]; intros seen H a c b c' r E P; [destruct a; discriminate|]. destruct a as [|j a].
  - injection E as -> ->. cbn in H. apply andb_prop in H as [_ H]. eapply (once_seen _ _ H (c_pid c)); eauto. now left.
  - injection E as <- ->. destruct i; cbn in H; try (eapply (IH _ H); eauto; fail). apply andb_prop in H as [_ H]. eapply (IH _ H); eauto.
Qed.
Lemma once_sound h : once_b (inputs h) [] = true -> connects_once h.
Proof. intros H a c ev b c' ev' r -> P. unfold inputs in *. rewrite map_app in H. cbn [map fst] in H. rewrite map_app in H. cbn [map fst] in H. eapply (once_all _ _ H (map fst a)); eauto. Qed.
(* declared_in_order *)
Fixpoint order_b (l : list group) (seen : list Z) : bool := match l with [] => true | g :: r => forallb (fun b => existsb (Z.eqb b) seen) (g_deps g) && order_b r (g_id g :: seen) end.
Lemma order_seen l : forall seen g r b, order_b (l ++ g :: r) seen = true -> In b (g_deps g) -> In b seen \/ In b (map g_id l).
Proof.
  induction l as [|x l IH]; intros seen g r b H J; cbn [app order_b] in H; apply andb_prop in H as [A B].
  - left. rewrite forallb_forall in A. apply A in J. apply existsb_exists in J as (y & J & Y). apply Z.eqb_eq in Y. now subst y.
  - destruct (IH _ _ _ _ B J) as [[<-|K]|K]; cbn; auto.
Qed.
Lemma in_order gs : order_b gs [] = true -> declared_in_order gs.
Proof. intros H l g r -> b J. destruct (order_seen l [] g r b H J) as [[]|K]; auto. Qed.
Lemma exec_leads h0 d0 l : forall d r d' h', leads h0 d0 d r -> exec l d (h0 ++ r) = Some (d', h') -> exists r', h' = h0 ++ r' /\ leads h0 d0 d' r'.
Proof.
  induction l as [|[i o] l IH]; intros d r d' h' L; cbn [exec].
  - intro H. injection H as <- <-. eauto.
  - destruct (possible_b (h0 ++ r) o i) eqn:P; [|discriminate]. destruct (step o i d) as [[d1 ev]|] eqn:S; [|discriminate]. rewrite <- app_assoc. apply IH. apply (leads_step h0 d0 d r o i d1 ev L); auto. now apply possible_sound.
Qed.
