(* To make histories of the queue forward, for the witnesses, and to decide what the specification says of them. *)
From Coq Require Import ZArith List Bool Lia.
From Verif Require Import QfwModel QfwSpec QfwProofs QfwInv QfwFlow QfwCount QfwShape QfwStop QfwEnd QfwQuiet QfwLook QfwRef QfwKnow QfwStart.
Import ListNotations.
Local Open Scope Z_scope.

Definition conf_ok_b (c : conf) : bool := match g_service c, g_dest c with None, None => false | _, _ => true end.
Definition possible_b (i : input) : bool := match i with Update l => forallb conf_ok_b l | Dead p => negb (p =? 0) | _ => true end.
Lemma possible_sound i : possible_b i = true -> possible i.
Proof.
  destruct i; cbn; auto.
  - intros H c I S. rewrite forallb_forall in H. specialize (H c I). unfold conf_ok_b in H. rewrite S in H. destruct (g_dest c); [discriminate|discriminate H].
  - intro H. now apply negb_true_iff, Z.eqb_neq in H.
Qed.
Fixpoint exec (l : list input) (s : state) (h : history) : option (state * history) :=
  match l with
  | [] => Some (s, h)
  | i :: r => if possible_b i then let x := step i s in exec r (fst x) (h ++ [(i, snd x)]) else None
  end.
Lemma exec_reach l : forall s h s' h', exec l s h = Some (s', h') -> reach s h -> reach s' h'.
Proof.
  induction l as [|i l IH]; intros s h s' h'; cbn [exec].
  - intro H; injection H as <- <-; auto.
  - destruct (possible_b i) eqn:P; [|discriminate]. cbv zeta. intros H R. apply (IH _ _ _ _ H). apply reach_step; auto. now apply possible_sound.
Qed.
Definition made (l : list input) : state * history := match exec l state0 [] with Some x => x | None => (state0, []) end.
Lemma exec_reach0 l x : exec l state0 [] = Some x -> reach (fst x) (snd x).
Proof. destruct x as [s h]. intro H. apply (exec_reach _ _ _ _ _ H reach_start). Qed.

(* ---- deciding, by the state ---- *)
Lemma active_by s h f k : reach s h -> existsb (fun p => (p_corr p =? k) && (p_fwd p =? f) && negb (stage_eqb (p_stage p) LookQ)) (s_pending s) = true -> active f k h.
Proof.
  intros R H. apply existsb_exists in H as [p [I E]]. apply andb_true_iff in E as [E S]. apply andb_true_iff in E as [K F]. apply Z.eqb_eq in K, F. apply (active_pending s h _ _ R). exists p. split; [auto|split; [auto|split; [auto|]]]. intro Q. rewrite Q in S. discriminate.
Qed.
Lemma none_active s h : reach s h -> forallb (fun p => stage_eqb (p_stage p) LookQ) (s_pending s) = true -> forall f k, ~ active f k h.
Proof. intros R H f k A. apply (active_pending s h _ _ R) in A as (p & I & _ & _ & N). rewrite forallb_forall in H. apply N, stage_eqb_eq. auto. Qed.
Lemma waiting_by s h f k : reach s h -> existsb (fun p => stage_eqb (p_stage p) LookQ && (p_fwd p =? f) && (p_corr p =? k)) (s_pending s) = true -> waiting f k h.
Proof.
  intros R H. apply existsb_exists in H as [p [I E]]. apply andb_true_iff in E as [E K]. apply andb_true_iff in E as [S F]. apply stage_eqb_eq in S. apply Z.eqb_eq in K, F. apply (reach_waiting s h R). exists p. auto.
Qed.
Lemma none_waiting s h : reach s h -> forallb (fun p => negb (stage_eqb (p_stage p) LookQ)) (s_pending s) = true -> forall f k, ~ waiting f k h.
Proof. intros R H f k W. apply (reach_waiting s h R) in W as (p & I & S & _). rewrite forallb_forall in H. specialize (H p I). rewrite S in H. discriminate. Qed.
Definition no_loss_b (h : history) : bool := forallb (fun i => match i with NotDequeued _ => false | _ => true end) (inputs h).
Lemma no_loss_sound h : no_loss_b h = true -> no_loss h.
Proof. intros H k I. unfold no_loss_b in H. rewrite forallb_forall in H. specialize (H _ I). discriminate. Qed.
Definition no_shutdown_b (h : history) : bool := forallb (fun i => match i with Shutdown => false | _ => true end) (inputs h).
Lemma no_shutdown_sound h : no_shutdown_b h = true -> ~ In Shutdown (inputs h).
Proof. intros H I. unfold no_shutdown_b in H. rewrite forallb_forall in H. specialize (H _ I). discriminate. Qed.
(* the last Shutdown is after the last Update *)
Fixpoint closing_rev (r : history) : bool := match r with [] => false | (Shutdown, _) :: _ => true | (Update _, _) :: _ => false | _ :: r => closing_rev r end.
Lemma closing_sound h : closing_rev (rev h) = true -> closing h.
Proof.
  rewrite <- (rev_involutive h) at 2. generalize (rev h) as r. induction r as [|[i ev] r IH]; cbn [closing_rev rev]; [discriminate|]. intro H. destruct i; try discriminate H; try (apply closing_now); apply closing_since; auto; discriminate.
Qed.
(* a beginning of what is run *)
Lemma exec_prefix l : forall n s h s' h', exec l s h = Some (s', h') -> exists t s2, h' = h ++ t /\ exec (firstn n l) s h = Some (s2, h ++ firstn n t).
Proof.
  induction l as [|i l IH]; intros n s h s' h'; cbn [exec].
  - intro H; injection H as <- <-. exists [], s. rewrite !firstn_nil, !app_nil_r. auto.
  - destruct (possible_b i) eqn:P; [|discriminate]. cbv zeta. intros H. destruct n as [|n].
    + destruct (IH O _ _ _ _ H) as (t & s2 & -> & _). exists ((i, snd (step i s)) :: t), s. cbn [firstn exec]. rewrite app_nil_r, <- app_assoc. auto.
    + destruct (IH n _ _ _ _ H) as (t & s2 & -> & E). exists ((i, snd (step i s)) :: t), s2. cbn [firstn exec]. rewrite P. cbv zeta. rewrite E, <- !app_assoc. auto.
Qed.
Lemma exec_reach_upto l x n : exec l state0 [] = Some x -> reach (fst (made (firstn n l))) (firstn n (snd x)).
Proof.
  destruct x as [s h]. intro H. destruct (exec_prefix l n _ _ _ _ H) as (t & s2 & -> & E). cbn [app snd] in *. unfold made. rewrite E. apply (exec_reach0 _ _ E).
Qed.
