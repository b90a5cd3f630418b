(* The invariant of the outbound: whatever it keeps is about a connection there is. *)
From Coq Require Import ZArith List Bool Lia.
From Verif Require Import GwoModel GwoSpec GwoProofs.
Import ListNotations.
Local Open Scope Z_scope.

Definition ipcs (s : state) : list ipc := map c_ipc (s_conns s).
Definition live (f : sock) (s : state) : Prop := exists n, In n (s_conns s) /\ c_sock n = f.

(* holds in every state *)
Record wf (s : state) : Prop := {
  wf_sock : NoDup (map c_sock (s_conns s));
  wf_ipc : NoDup (ipcs s);
  wf_leaving : forall l, In l (s_leaving s) -> live (fst l) s;
  wf_dests : forall d, In d (s_dests s) -> live (d_sock d) s;
  wf_keys : NoDup (map fst (s_assoc s));
  wf_fds : forall g fs, In (g, fs) (s_assoc s) -> NoDup fs /\ fs <> []
}.
(* holds as long as it's orderly *)
Record tight (s : state) : Prop := {
  ti_tasks : forall t, In t (s_tasks s) -> live (k_sock t) s;
  ti_assoc : forall g fs f, In (g, fs) (s_assoc s) -> In f fs -> live f s
}.

(* the connections that are closed are the ones that are told *)
Definition closing (s s' : state) (ev : list effect) : Prop :=
  (exists f, s_conns s' = filter f (s_conns s)) /\
  (forall c, In (Destroyed c) ev <-> In c (ipcs s) /\ ~ In c (ipcs s')).
Lemma filter_filter {A} (f g : A -> bool) l : filter f (filter g l) = filter (fun x => g x && f x) l.
Proof. induction l as [|a l IH]; cbn; auto. destruct (g a); cbn; [destruct (f a); now rewrite IH|auto]. Qed.
Lemma filter_true {A} (l : list A) : filter (fun _ => true) l = l.
Proof. induction l; cbn; congruence. Qed.
Lemma closing_sub s s' ev : closing s s' ev -> forall c, In c (ipcs s') -> In c (ipcs s).
Proof.
  intros [[f E] _] c. unfold ipcs. rewrite E. intro H. apply in_map_iff in H as [n [<- I]]. apply filter_In in I as [I _]. now apply in_map.
Qed.
Lemma closing_trans s s1 s2 e1 e2 : closing s s1 e1 -> closing s1 s2 e2 -> closing s s2 (e1 ++ e2).
Proof.
  intros H1 H2. pose proof (closing_sub _ _ _ H1) as U1. pose proof (closing_sub _ _ _ H2) as U2.
  destruct H1 as [[f1 E1] D1], H2 as [[f2 E2] D2]. split.
  - exists (fun x => f1 x && f2 x). now rewrite E2, E1, filter_filter.
  - intro c. rewrite in_app_iff, D1, D2. destruct (in_dec Z.eq_dec c (ipcs s1)) as [I|I]; split; intro H.
    + destruct H as [[A B]|[A B]]; [contradiction|]. auto.
    + destruct H as [A B]. auto.
    + destruct H as [[A B]|[A B]]; [|contradiction]. split; auto.
    + destruct H as [A B]. auto.
Qed.
Lemma closing_refl s s' ev : s_conns s' = s_conns s -> (forall c, ~ In (Destroyed c) ev) -> closing s s' ev.
Proof.
  intros E H. split; [exists (fun _ => true); now rewrite filter_true|]. intro c. unfold ipcs. rewrite E. split; [intro; exfalso; eapply H; eauto|tauto].
Qed.

Lemma NoDup_filter' {A B} (g : A -> B) (f : A -> bool) l : NoDup (map g l) -> NoDup (map g (filter f l)).
Proof.
  induction l as [|a l IH]; cbn; auto. intro N. inversion N as [|? ? N1 N2]; subst. destruct (f a); cbn; auto. constructor; auto.
  intro H. apply N1. apply in_map_iff in H as [x [E I]]. apply filter_In in I as [I _]. rewrite <- E. now apply in_map.
Qed.

Lemma failed_no_destroyed t c : ~ In (Destroyed c) (failed t).
Proof. unfold failed. destruct (q_kind (k_request t)); cbn; intuition discriminate. Qed.
Lemma same_sock s n m : NoDup (map c_sock (s_conns s)) -> In n (s_conns s) -> In m (s_conns s) -> c_sock n = c_sock m -> n = m.
Proof.
  intros N I J E. pose proof (by_sock_in s n N I) as H1. pose proof (by_sock_in s m N J) as H2. rewrite E, H2 in H1. now injection H1.
Qed.
Lemma same_ipc s n m : NoDup (ipcs s) -> In n (s_conns s) -> In m (s_conns s) -> c_ipc n = c_ipc m -> n = m.
Proof.
  unfold ipcs. induction (s_conns s) as [|a l IH]; cbn; [tauto|]. intros N I J E. inversion N as [|? ? N1 N2]; subst.
  destruct I as [-> | I], J as [-> | J]; auto.
  - exfalso. apply N1. rewrite E. now apply in_map.
  - exfalso. apply N1. rewrite <- E. now apply in_map.
Qed.
Lemma lost_closing f s : wf s -> sat (lost f s) (closing s).
Proof.
  intro W. unfold lost. destruct (by_sock f s) as [n|] eqn:B; cbn; auto.
  apply by_sock_some in B as B'. destruct B' as [I E]. split; [eexists; reflexivity|]. intro c. unfold ipcs. cbn.
  assert (X : In (Destroyed c) (unadvertise f s ++ Destroyed (c_ipc n) :: flat_map (fun t => if k_sock t =? f then failed t else []) (s_tasks s)) <-> c = c_ipc n).
  { unfold unadvertise. rewrite B. cbn. split.
    - intros [H|[H|[H|H]]]; try discriminate; [congruence|]. exfalso. apply in_flat_map in H as [t [_ H]].
      destruct (k_sock t =? f); [now apply failed_no_destroyed in H|contradiction].
    - intros ->. auto. }
  cbn in X. rewrite X. split.
  - intros ->. split; [now apply in_map|]. intro H. apply in_map_iff in H as [m [E2 J]]. apply filter_In in J as [J K].
    rewrite (same_ipc s m n (wf_ipc _ W) J I E2) in K. rewrite E, Z.eqb_refl in K. discriminate.
  - intros [H1 H2]. apply in_map_iff in H1 as [m [<- J]]. destruct (Z.eq_dec (c_sock m) f) as [F|F].
    + f_equal. apply (same_sock s); auto; [apply W|congruence].
    + exfalso. apply H2. apply in_map. apply filter_In. split; auto. now apply negb_true_iff, Z.eqb_neq.
Qed.

(* ---- associations ---- *)
Definition assoc (g : Z) (f : sock) (l : list (Z * list sock)) : Prop := exists fs, In (g, fs) l /\ In f fs.
Lemma existsb_eqb f l : existsb (Z.eqb f) l = true <-> In f l.
Proof. rewrite existsb_exists. split; [intros [x [I E]]; apply Z.eqb_eq in E; now subst|intro; exists f; now rewrite Z.eqb_refl]. Qed.
Lemma existsb_eqb_false f l : existsb (Z.eqb f) l = false <-> ~ In f l.
Proof. rewrite <- existsb_eqb. destruct (existsb _ _); split; intro; congruence. Qed.
Definition assoc_ok (l : list (Z * list sock)) : Prop := NoDup (map fst l) /\ forall g fs, In (g, fs) l -> NoDup fs /\ fs <> [].
Lemma NoDup_snoc {A} (l : list A) x : NoDup l -> ~ In x l -> NoDup (l ++ [x]).
Proof.
  intros N H. induction N as [|a l H1 N1 IH]; cbn; [repeat constructor; auto|]. constructor.
  - rewrite in_app_iff; cbn. intros [I|[I|[]]]; subst; cbn in *; tauto.
  - apply IH. cbn in H; tauto.
Qed.
Lemma associate_keys g f l b l' : associate g f l = (b, l') -> forall x, In x (map fst l') <-> In x (map fst l) \/ x = g.
Proof.
  revert b l'. induction l as [|[h fs] l IH]; intros b l'; cbn.
  - intro H; injection H as <- <-. cbn. intro x. intuition.
  - destruct (Z.eqb_spec h g) as [-> |N].
    + destruct (existsb (Z.eqb f) fs); intro H; injection H as <- <-; cbn; intro x; intuition.
    + destruct (associate g f l) as [b1 r] eqn:E. intro H; injection H as <- <-. cbn. intro x. rewrite (IH _ _ eq_refl). tauto.
Qed.
Lemma associate_ok g f l b l' : assoc_ok l -> associate g f l = (b, l') -> assoc_ok l'.
Proof.
  unfold assoc_ok. revert b l'. induction l as [|[h fs] l IH]; intros b l' [N K]; cbn.
  - intro H; injection H as <- <-. cbn. split; [repeat constructor; auto|]. intros g0 fs0 [H|[]]. injection H as <- <-. split; [repeat constructor; auto|discriminate].
  - cbn in N. inversion N as [|? ? N1 N2]; subst. assert (K' : assoc_ok l) by (split; auto; intros; apply (K g0 fs0); cbn; auto).
    destruct (Z.eqb_spec h g) as [-> |Ne].
    + destruct (existsb (Z.eqb f) fs) eqn:E; intro H; injection H as <- <-; cbn; [split; auto|]. split; [constructor; auto|].
      intros g0 fs0 [H|H]; [|apply (K g0 fs0); cbn; auto]. injection H as <- <-. apply existsb_eqb_false in E. destruct (K g fs) as [K1 K2]; cbn; auto.
      split; [now apply NoDup_snoc|]. destruct fs; discriminate.
    + destruct (associate g f l) as [b1 r] eqn:E. intro H; injection H as <- <-. destruct (IH _ _ K' eq_refl) as [A B]. cbn. split.
      * constructor; auto. intro I. apply (associate_keys _ _ _ _ _ E) in I as [I|I]; auto.
      * intros g0 fs0 [I|I]; [injection I as <- <-; apply (K h fs); cbn; auto|exact (B g0 fs0 I)].
Qed.
Lemma associate_assoc g f l b l' g' f' : associate g f l = (b, l') -> (assoc g' f' l' <-> assoc g' f' l \/ (g' = g /\ f' = f)).
Proof.
  unfold assoc. revert b l'. induction l as [|[h fs] l IH]; intros b l'; cbn.
  - intro H; injection H as <- <-. split.
    + intros [x [[H|[]] I]]. injection H as <- <-. destruct I as [-> |[]]. auto.
    + intros [[x [[] _]]|[-> ->]]. exists [f]; cbn; auto.
  - destruct (Z.eqb_spec h g) as [-> |Ne].
    + destruct (existsb (Z.eqb f) fs) eqn:E; intro H; injection H as <- <-.
      * split; [auto|]. intros [H|[-> ->]]; auto. exists fs. cbn. apply existsb_eqb in E. auto.
      * split.
        -- intros [x [[H|H] I]].
           ++ injection H as <- <-. apply in_app_or in I as [I|[<- |[]]]; [|auto]. left. exists fs. cbn; auto.
           ++ left. exists x. cbn; auto.
        -- intros [[x [[H|H] I]]|[-> ->]].
           ++ injection H as <- <-. exists (fs ++ [f]). cbn. rewrite in_app_iff. auto.
           ++ exists x. cbn; auto.
           ++ exists (fs ++ [f]). cbn. rewrite in_app_iff. cbn; auto.
    + destruct (associate g f l) as [b1 r] eqn:E. intro H; injection H as <- <-. specialize (IH _ _ eq_refl). split.
      * intros [x [[H|H] I]]; [left; exists x; cbn; auto|]. destruct IH as [IH _]. destruct IH as [[y [J1 J2]]|J]; [eauto|left; exists y; cbn; auto|auto].
      * intros [[x [[H|H] I]]|J]; [exists x; cbn; auto| |].
        -- destruct IH as [_ IH]. destruct IH as [y [J1 J2]]; [left; eauto|exists y; cbn; auto].
        -- destruct IH as [_ IH]. destruct IH as [y [J1 J2]]; [auto|exists y; cbn; auto].
Qed.
Lemma associate_first g f l b l' : assoc_ok l -> associate g f l = (b, l') -> (b = true <-> ~ assoc g f l).
Proof.
  unfold assoc_ok, assoc. revert b l'. induction l as [|[h fs] l IH]; intros b l' [N K]; cbn.
  - intro H; injection H as <- <-. split; auto. intros _ [x [[] _]].
  - cbn in N. inversion N as [|? ? N1 N2]; subst. destruct (Z.eqb_spec h g) as [-> |Ne].
    + destruct (existsb (Z.eqb f) fs) eqn:E; intro H; injection H as <- <-.
      * apply existsb_eqb in E. split; [discriminate|]. intro X; exfalso; apply X. exists fs; cbn; auto.
      * apply existsb_eqb_false in E. split; auto. intros _ [x [[H|H] I]]; [injection H as <-; auto|].
        apply N1. apply (in_map fst) in H. exact H.
    + destruct (associate g f l) as [b1 r] eqn:E. intro H; injection H as <- <-.
      rewrite (IH b1 r); [|split; auto; intros; apply (K g0 fs0); cbn; auto|reflexivity].
      split; intros X [x Y]; apply X.
      * destruct Y as [[H|H] I]; [injection H as -> _; congruence|eauto].
      * exists x; cbn; tauto.
Qed.

Lemma remove_first_in f l x : NoDup l -> (In x (remove_first f l) <-> In x l /\ x <> f).
Proof.
  induction l as [|a l IH]; cbn; [tauto|]. intro N. inversion N as [|? ? N1 N2]; subst. destruct (Z.eqb_spec a f) as [-> |Ne].
  - split; [intro I; split; auto; intros ->; auto|]. intros [[-> |I] H]; [congruence|auto].
  - cbn. rewrite (IH N2). split; [intros [-> |[H1 H2]]; auto|intros [[-> |H1] H2]; auto].
Qed.
Lemma remove_first_nodup f l : NoDup l -> NoDup (remove_first f l).
Proof.
  induction l as [|a l IH]; cbn; auto. intro N. inversion N as [|? ? N1 N2]; subst. destruct (a =? f); auto. constructor; auto.
  rewrite (remove_first_in f l a N2). tauto.
Qed.
Lemma dissociate_in f l g fs : In (g, fs) (dissociate f l) -> exists fs0, In (g, fs0) l /\ fs = (if existsb (Z.eqb f) fs0 then remove_first f fs0 else fs0) /\ (existsb (Z.eqb f) fs0 = true -> fs <> []).
Proof.
  unfold dissociate. rewrite in_flat_map. intros [[h x] [I J]]. cbn in J. destruct (existsb (Z.eqb f) x) eqn:E.
  - destruct (remove_first f x) as [|y r] eqn:R; [destruct J|]. destruct J as [J|[]]. injection J as <- <-. exists x. rewrite E, R. split; auto. split; auto. intros _; discriminate.
  - destruct J as [J|[]]. injection J as <- <-. exists x. rewrite E. split; auto. split; auto. discriminate.
Qed.
Lemma dissociate_ok f l : assoc_ok l -> assoc_ok (dissociate f l).
Proof.
  intros [N K]. split.
  - clear K. induction l as [|[h x] l IH]; cbn; [constructor|]. cbn in N. inversion N as [|? ? N1 N2]; subst.
    assert (X : forall y, In y (map fst (dissociate f l)) -> In y (map fst l)).
    { intros y H. apply in_map_iff in H as [[g fs] [<- I]]. apply dissociate_in in I as [fs0 [I _]]. apply (in_map fst) in I. exact I. }
    unfold dissociate in *. destruct (existsb (Z.eqb f) x); [destruct (remove_first f x)|]; cbn; auto; constructor; auto.
  - intros g fs H. apply dissociate_in in H as [fs0 [I [-> E]]]. destruct (K g fs0 I) as [K1 K2].
    destruct (existsb (Z.eqb f) fs0); [split; [now apply remove_first_nodup|auto]|auto].
Qed.
Lemma dissociate_assoc f l g f' : assoc_ok l -> (assoc g f' (dissociate f l) <-> assoc g f' l /\ f' <> f).
Proof.
  intros [N K]. unfold assoc. split.
  - intros [fs [H I]]. apply dissociate_in in H as [fs0 [J [-> E]]]. destruct (K g fs0 J) as [K1 K2].
    destruct (existsb (Z.eqb f) fs0) eqn:X; [apply remove_first_in in I as [I1 I2]; eauto|].
    split; [eauto|]. intros ->. apply existsb_eqb_false in X. auto.
  - intros [[fs [H I]] Ne]. destruct (K g fs H) as [K1 K2]. unfold dissociate. destruct (existsb (Z.eqb f) fs) eqn:X.
    + assert (J : In f' (remove_first f fs)) by (apply remove_first_in; auto).
      exists (remove_first f fs). split; auto. apply in_flat_map. exists (g, fs). split; auto. cbn. rewrite X. destruct (remove_first f fs); [destruct J|cbn; auto].
    + exists fs. split; auto. apply in_flat_map. exists (g, fs). split; auto. cbn. rewrite X. cbn; auto.
Qed.
