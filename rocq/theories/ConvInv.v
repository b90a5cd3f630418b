(* The invariant of a conversation, and the moves of a process *)
From Coq Require Import ZArith List Bool Lia.
From Verif Require Import ConvModel ConvSpec ConvProofs.
Import ListNotations.
Local Open Scope Z_scope.

(* ---------------------------------------------------------------- the value of a conversation *)
Fixpoint val (c : corr) (l : list (option value)) : option (nat * value) :=
  match l with
  | [] => None
  | o :: r =>
      match o with
      | Some v => if corr_eqb (v_corr v) c then Some (O, v) else match val c r with Some (n, u) => Some (Datatypes.S n, u) | None => None end
      | None => match val c r with Some (n, u) => Some (Datatypes.S n, u) | None => None end
      end
  end.
Definition uniq (l : list (option value)) : Prop := forall n n' v v', at_ n l = Some v -> at_ n' l = Some v' -> v_corr v = v_corr v' -> n = n'.
Lemma val_at c l n v : val c l = Some (n, v) -> at_ n l = Some v /\ v_corr v = c.
Proof.
  revert n v. induction l as [|o l IH]; intros n v; cbn [val]; [discriminate|]. destruct o as [u|].
  - destruct (corr_eqb (v_corr u) c) eqn:E; [intros [= <- <-]; apply corr_eqb_eq in E; auto|]. destruct (val c l) as [[k y]|]; [|discriminate]. intros [= <- <-]. exact (IH k y eq_refl).
  - destruct (val c l) as [[k y]|]; [|discriminate]. intros [= <- <-]. exact (IH k y eq_refl).
Qed.
Lemma val_none c l : val c l = None -> forall n v, at_ n l = Some v -> v_corr v <> c.
Proof.
  induction l as [|o l IH]; cbn [val]; intros E [|n] v A; unfold at_ in A; cbn in A; try discriminate.
  - subst o. destruct (corr_eqb (v_corr v) c) eqn:F; [discriminate|]. apply corr_eqb_neq in F. exact F.
  - apply (IH (ltac:(destruct o as [u|]; [destruct (corr_eqb (v_corr u) c); [discriminate|]|]; destruct (val c l) as [[k y]|]; [discriminate|reflexivity|discriminate|reflexivity])) n v A).
Qed.
Lemma at_val l n v : uniq l -> at_ n l = Some v -> val (v_corr v) l = Some (n, v).
Proof.
  intros U A. destruct (val (v_corr v) l) as [[k u]|] eqn:E; [|exfalso; exact (val_none _ _ E n v A eq_refl)].
  apply val_at in E. destruct E as [B C]. assert (k = n) by exact (U k n u v B A C). subst k. rewrite A in B. injection B as <-. reflexivity.
Qed.
Lemma val_intro c l n v : uniq l -> at_ n l = Some v -> v_corr v = c -> val c l = Some (n, v).
Proof. intros U A <-. exact (at_val l n v U A). Qed.
Lemma val_not c l : (forall n v, at_ n l = Some v -> v_corr v <> c) -> val c l = None.
Proof. intros N. destruct (val c l) as [[n v]|] eqn:E; [|reflexivity]. apply val_at in E. destruct E as [A C]. exfalso. exact (N n v A C). Qed.
Lemma uniq_none n l : uniq l -> uniq (set_at n None l).
Proof. intros U k k' v v'. rewrite !at_set_none. destruct (k =? n)%nat; [discriminate|]. destruct (k' =? n)%nat; [discriminate|]. apply U. Qed.
Lemma val_close c l n v : uniq l -> at_ n l = Some v -> val c (set_at n None l) = if corr_eqb (v_corr v) c then None else val c l.
Proof.
  intros U A. destruct (corr_eqb (v_corr v) c) eqn:E.
  - apply corr_eqb_eq in E. apply val_not. intros k u. rewrite at_set_none. destruct (k =? n)%nat eqn:K; [discriminate|]. intros B C. apply Nat.eqb_neq in K. apply K. apply (U k n u v B A). congruence.
  - apply corr_eqb_neq in E. destruct (val c l) as [[k u]|] eqn:V.
    + apply val_at in V. destruct V as [B C]. apply val_intro; [apply uniq_none, U| |exact C]. rewrite at_set_none. destruct (k =? n)%nat eqn:K; [|exact B]. apply Nat.eqb_eq in K. subst k. rewrite A in B. injection B as <-. contradiction.
    + apply val_not. intros k u. rewrite at_set_none. destruct (k =? n)%nat; [discriminate|]. apply (val_none _ _ V).
Qed.
Lemma uniq_same n l v v' : uniq l -> at_ n l = Some v -> v_corr v' = v_corr v -> uniq (set_at n (Some v') l).
Proof.
  intros U A C k k' u u'. rewrite !(at_set_some n _ v' v l A). destruct (k =? n)%nat eqn:K; destruct (k' =? n)%nat eqn:K'; rewrite ?Nat.eqb_eq in *; subst; intros E E' Q; try reflexivity.
  - injection E as <-. apply (U n k' v u' A E'). congruence.
  - injection E' as <-. apply (U k n u v E A). congruence.
  - exact (U _ _ _ _ E E' Q).
Qed.
Lemma val_same c l n v v' : uniq l -> at_ n l = Some v -> v_corr v' = v_corr v -> val c (set_at n (Some v') l) = if corr_eqb (v_corr v) c then Some (n, v') else val c l.
Proof.
  intros U A Q. pose proof (uniq_same _ _ _ _ U A Q) as U'. destruct (corr_eqb (v_corr v) c) eqn:E.
  - apply corr_eqb_eq in E. apply val_intro; [exact U'|exact (at_set _ _ _ _ A)|congruence].
  - apply corr_eqb_neq in E. destruct (val c l) as [[k u]|] eqn:V.
    + apply val_at in V. destruct V as [B C]. apply val_intro; [exact U'| |exact C]. rewrite (at_set_some n k v' v l A). destruct (k =? n)%nat eqn:K; [|exact B]. apply Nat.eqb_eq in K. subst k. rewrite A in B. injection B as <-. contradiction.
    + apply val_not. intros k u. rewrite (at_set_some n k v' v l A). destruct (k =? n)%nat; [intros [= <-]; congruence|]. apply (val_none _ _ V).
Qed.
Lemma uniq_reserve v l l' n : uniq l -> val (v_corr v) l = None -> reserve v l = (l', n) -> uniq l'.
Proof.
  intros U N R. apply reserve_spec in R. destruct R as [A B]. intros k k' u u'. rewrite !B. destruct (k =? n)%nat eqn:K; destruct (k' =? n)%nat eqn:K'; rewrite ?Nat.eqb_eq in *; subst; intros E E' Q; try reflexivity.
  - injection E as <-. exfalso. exact (val_none _ _ N k' u' E' (eq_sym Q)).
  - injection E' as <-. exfalso. exact (val_none _ _ N k u E Q).
  - exact (U _ _ _ _ E E' Q).
Qed.
Lemma val_reserve c v l l' n : uniq l -> val (v_corr v) l = None -> reserve v l = (l', n) -> val c l' = if corr_eqb (v_corr v) c then Some (n, v) else val c l.
Proof.
  intros U N R. pose proof (uniq_reserve _ _ _ _ U N R) as U'. apply reserve_spec in R. destruct R as [A B]. destruct (corr_eqb (v_corr v) c) eqn:E.
  - apply corr_eqb_eq in E. apply val_intro; [exact U'|rewrite B, Nat.eqb_refl; reflexivity|exact E].
  - apply corr_eqb_neq in E. destruct (val c l) as [[k u]|] eqn:V.
    + apply val_at in V. destruct V as [C D]. apply val_intro; [exact U'| |exact D]. rewrite B. destruct (k =? n)%nat eqn:K; [|exact C]. apply Nat.eqb_eq in K. subst k. rewrite A in C. discriminate.
    + apply val_not. intros k u. rewrite B. destruct (k =? n)%nat; [intros [= <-]; exact E|]. apply (val_none _ _ V).
Qed.

(* ---------------------------------------------------------------- what a message carries *)
Definition dt (l : list body) : list (bool * Z) := flat_map (fun b => match b with Request _ d x => [(gives d, x)] | Data d x => [(gives d, x)] | _ => [] end) l.
Lemma dt_app l r : dt (l ++ r) = dt l ++ dt r.
Proof. apply flat_map_app. Qed.
Definition is_request (b : body) : bool := match b with Request _ _ _ => true | _ => false end.
Definition is_returned (b : body) : bool := match b with Returned _ _ _ => true | _ => false end.

(* the two sides: a, the initiator, and b; P: from a to b, Q: from b to a; what they have sent and got *)
Definition active (d : option duplex) (l : list body) : Prop := d = Some DSend \/ dt l <> [].
Definition tail_ok (d : option duplex) (l : list body) : Prop := forall l1 x l2, dt l = l1 ++ (true, x) :: l2 -> l2 = [] /\ d <> Some DSend.
Record shape (a b : option duplex) (P Q : list body) (sp gp sq gq : list (bool * Z)) : Prop := mk_shape {
  sh_dq : (b <> None \/ exists x, In x P /\ is_request x = true) -> gq ++ dt P = sp;
  sh_pq : prefix gq sp;
  sh_dp : a <> None -> gp ++ dt Q = sq;
  sh_pp : prefix gp sq;
  sh_one : ~ (active a P /\ active b Q);
  sh_ta : tail_ok a P;
  sh_tb : tail_ok b Q;
  sh_req : forall l1 x l2, P = l1 ++ x :: l2 -> is_request x = true -> b = None /\ l1 = [] /\ Q = [] /\ (forall y, In y l2 -> is_request y = false) /\ gq = [] /\ sq = [];
  sh_ret : forall l1 x l2, Q = l1 ++ x :: l2 -> is_returned x = true -> b = None /\ l2 = [];
  sh_dis : In Disconnect P -> a = None }.

Definition tgt (h : list entry) (c : corr) (t : Z) : Prop := In (Called c t) (of_proc (fst c) h).
Definition V (w : world) (x : Z) (c : corr) : option (nat * value) := val c (p_descs (w_proc w x)).
Definition dup_of (o : option (nat * value)) : option duplex := match o with Some (_, v) => Some (v_dup v) | None => None end.
Definition path (x y : Z) (c : corr) (w : world) : list body := mine c (p_inbox (w_proc w y)) ++ way x y c (w_net w).
(* what is sent to the service, and to the one that connected *)
Definition to_sub (h : list entry) (c : corr) (b : body) : Prop :=
  match b with Request f _ _ => f = fst c | Data _ _ => True | Disconnect => exists d, In (fst c, Tpdiscon d None, O_ok, [Closed c d]) h | _ => False end.
Definition to_init (h : list entry) (c : corr) (t : Z) (b : body) : Prop :=
  match b with Connected => exists d g, In (Opened c d g) (of_proc t h) | Data _ _ => True | Returned code user data => exists o, code = code_of o /\ In (Back c o user data) (of_proc t h) | _ => False end.

Record CInv (w : world) (h : list entry) (c : corr) (t : Z) : Prop := mk_cinv {
  c_other : t <> fst c;
  c_next : snd c < p_next (w_proc w (fst c));
  c_uniq : forall t', tgt h c t' -> t' = t;
  c_init : forall n v, V w (fst c) c = Some (n, v) -> v_init v = true /\ v_peer v = t;
  c_sub : forall n v, V w t c = Some (n, v) -> v_init v = false /\ v_peer v = fst c /\ p_serv (w_proc w t) = Some (n, c, fst c);
  c_else : forall x, x <> fst c -> x <> t -> V w x c = None /\ mine c (p_inbox (w_proc w x)) = [] /\ sent x c h = [] /\ got x c h = [];
  c_serv : forall x n f, p_serv (w_proc w x) = Some (n, c, f) -> x = t /\ f = fst c /\ (forall b, In b (path t (fst c) c w) -> is_returned b = false) /\ (forall b, In b (path (fst c) t c w) -> is_request b = false);
  c_inp : forall b, In b (mine c (p_inbox (w_proc w (fst c)))) -> to_init h c t b;
  c_int : forall b, In b (mine c (p_inbox (w_proc w t))) -> to_sub h c b;
  c_net : forall x y b, In (x, y, mk_msg c b) (w_net w) -> (x = fst c /\ y = t /\ to_sub h c b) \/ (x = t /\ y = fst c /\ to_init h c t b);
  c_shape : shape (dup_of (V w (fst c) c)) (dup_of (V w t c)) (path (fst c) t c w) (path t (fst c) c w) (sent (fst c) c h) (got (fst c) c h) (sent t c h) (got t c h) }.
Record unused (w : world) (h : list entry) (c : corr) : Prop := mk_unused {
  u_val : forall x, V w x c = None;
  u_serv : forall x n f, p_serv (w_proc w x) <> Some (n, c, f);
  u_in : forall x, mine c (p_inbox (w_proc w x)) = [];
  u_net : forall x y b, ~ In (x, y, mk_msg c b) (w_net w);
  u_hist : forall x, sent x c h = [] /\ got x c h = [] }.
Record Inv (w : world) (h : list entry) : Prop := mk_inv {
  i_uniq : forall x, uniq (p_descs (w_proc w x));
  i_conn : forall x n c, p_conn (w_proc w x) = Some (n, c) -> exists v, at_ n (p_descs (w_proc w x)) = Some v /\ v_corr v = c /\ v_init v = true;
  i_all : forall c, (exists t, tgt h c t /\ CInv w h c t) \/ ((forall t, ~ tgt h c t) /\ unused w h c) }.

Lemma inv0 : Inv world0 [].
Proof.
  constructor.
  - intros x n n' v v' E. unfold at_ in E. destruct n; discriminate.
  - intros x n c E. discriminate.
  - intros c. right. split; [intros t []|]. constructor; intros; try reflexivity; try discriminate; auto.
Qed.

(* ---------------------------------------------------------------- what isn't touched *)
Record same (w : world) (h : list entry) (w' : world) (h' : list entry) (c : corr) : Prop := mk_same {
  s_val : forall x, V w' x c = V w x c;
  s_serv : forall x n f, p_serv (w_proc w' x) = Some (n, c, f) <-> p_serv (w_proc w x) = Some (n, c, f);
  s_in : forall x, mine c (p_inbox (w_proc w' x)) = mine c (p_inbox (w_proc w x));
  s_net : forall x y, way x y c (w_net w') = way x y c (w_net w);
  s_hist : forall x, sent x c h' = sent x c h /\ got x c h' = got x c h;
  s_tgt : forall t, tgt h' c t <-> tgt h c t;
  s_incl : incl h h';
  s_next : forall x, p_next (w_proc w x) <= p_next (w_proc w' x) }.
Lemma of_proc_incl x h h' : incl h h' -> incl (of_proc x h) (of_proc x h').
Proof. intros I v H. unfold of_proc in *. apply in_flat_map in H. destruct H as (n & J & K). apply in_flat_map. exists n. split; [exact (I n J)|exact K]. Qed.
Lemma to_sub_incl h h' c b : incl h h' -> to_sub h c b -> to_sub h' c b.
Proof. intros I. destruct b; cbn; auto. intros (d & H). exists d. exact (I _ H). Qed.
Lemma to_init_incl h h' c t b : incl h h' -> to_init h c t b -> to_init h' c t b.
Proof. intros I. destruct b; cbn; auto; [intros (d & g & H); exists d, g; exact (of_proc_incl t _ _ I _ H)|]. intros (o & E & H). exists o. split; [exact E|]. exact (of_proc_incl t _ _ I _ H). Qed.
Lemma same_path x y w h w' h' c : same w h w' h' c -> path x y c w' = path x y c w.
Proof. intros S. unfold path. rewrite (s_in _ _ _ _ _ S), (s_net _ _ _ _ _ S). reflexivity. Qed.
Lemma net_same w h w' h' c x y b : same w h w' h' c -> In (x, y, mk_msg c b) (w_net w') -> In (x, y, mk_msg c b) (w_net w).
Proof. intros S I. apply way_in. rewrite <- (s_net _ _ _ _ _ S). apply way_in. exact I. Qed.
Lemma same_inv w h w' h' c : same w h w' h' c -> ((exists t, tgt h c t /\ CInv w h c t) \/ ((forall t, ~ tgt h c t) /\ unused w h c)) ->
  ((exists t, tgt h' c t /\ CInv w' h' c t) \/ ((forall t, ~ tgt h' c t) /\ unused w' h' c)).
Proof.
  intros S [(t & T & I)|[N U]].
  - left. exists t. split; [apply (s_tgt _ _ _ _ _ S); exact T|]. destruct I as [c1 c2 c3 c4 c5 c6 c7 c8 c9 c10 c11]. destruct (s_hist _ _ _ _ _ S (fst c)) as [S1 S2]. destruct (s_hist _ _ _ _ _ S t) as [S3 S4]. constructor.
    + exact c1.
    + pose proof (s_next _ _ _ _ _ S (fst c)). lia.
    + intros t' T'. apply c3. apply (s_tgt _ _ _ _ _ S). exact T'.
    + intros n v. rewrite (s_val _ _ _ _ _ S). apply c4.
    + intros n v. rewrite (s_val _ _ _ _ _ S). intros E. destruct (c5 n v E) as (A & B & C). split; [exact A|]. split; [exact B|]. apply (s_serv _ _ _ _ _ S). exact C.
    + intros x N1 N2. rewrite (s_val _ _ _ _ _ S), (s_in _ _ _ _ _ S), (proj1 (s_hist _ _ _ _ _ S x)), (proj2 (s_hist _ _ _ _ _ S x)). exact (c6 x N1 N2).
    + intros x n f E. apply (s_serv _ _ _ _ _ S) in E. rewrite !(same_path _ _ _ _ _ _ _ S). exact (c7 x n f E).
    + intros b. rewrite (s_in _ _ _ _ _ S). intros E. exact (to_init_incl _ _ _ _ _ (s_incl _ _ _ _ _ S) (c8 b E)).
    + intros b. rewrite (s_in _ _ _ _ _ S). intros E. exact (to_sub_incl _ _ _ _ (s_incl _ _ _ _ _ S) (c9 b E)).
    + intros x y b E. apply (net_same _ _ _ _ _ _ _ _ S) in E. destruct (c10 x y b E) as [(A & B & C)|(A & B & C)]; [left|right]; (split; [exact A|]; split; [exact B|]).
      * exact (to_sub_incl _ _ _ _ (s_incl _ _ _ _ _ S) C).
      * exact (to_init_incl _ _ _ _ _ (s_incl _ _ _ _ _ S) C).
    + rewrite !(s_val _ _ _ _ _ S), !(same_path _ _ _ _ _ _ _ S), S1, S2, S3, S4. exact c11.
  - right. split; [intros t T; apply (s_tgt _ _ _ _ _ S) in T; exact (N t T)|]. destruct U as [u1 u2 u3 u4 u5]. constructor.
    + intros x. rewrite (s_val _ _ _ _ _ S). apply u1.
    + intros x n f E. apply (s_serv _ _ _ _ _ S) in E. exact (u2 x n f E).
    + intros x. rewrite (s_in _ _ _ _ _ S). apply u3.
    + intros x y b E. exact (u4 x y b (net_same _ _ _ _ _ _ _ _ S E)).
    + intros x. destruct (s_hist _ _ _ _ _ S x) as [-> ->]. apply u5.
Qed.
