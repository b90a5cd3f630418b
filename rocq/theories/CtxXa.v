(* The resource managers see legal sequences of XA calls *)
From Coq Require Import ZArith List Bool Lia.
From Verif Require Import CodesModel CtxModel CtxSpec CtxProofs CtxHeld.
Import ListNotations.
Local Open Scope Z_scope.

Definition bump (r x : Z) (a : assoc) (ev : event) : assoc :=
  match ev with Xa op r' x' _ => if (r' =? r) && (x' =? x) then legal a op else a | _ => a end.
Lemma assoc_app r x l evs : assoc_of r x (l ++ evs) = fold_left (bump r x) evs (assoc_of r x l).
Proof. unfold assoc_of. rewrite fold_left_app. reflexivity. Qed.
Lemma assoc_snoc r x l ev : assoc_of r x (l ++ [ev]) = bump r x (assoc_of r x l) ev.
Proof. apply assoc_app. Qed.

Definition A (c : ctx) (r x : Z) : assoc := assoc_of r x (c_log c).

Lemma A_xa op r' x' k c r x : A (log (Xa op r' x' k) c) r x = if (r' =? r) && (x' =? x) then legal (A c r x) op else A c r x.
Proof. unfold A. cbn [log c_log]. apply assoc_snoc. Qed.
Lemma A_other ev c r x : (forall op r' x' k, ev <> Xa op r' x' k) -> A (log ev c) r x = A c r x.
Proof. intros H. unfold A. cbn [log c_log]. rewrite assoc_snoc. destruct ev; cbn; try reflexivity. destruct (H op r0 x0 code eq_refl). Qed.

Lemma mem_in r l : mem r l = true <-> In r l.
Proof. unfold mem. rewrite existsb_exists. split; [intros (y&I&E); apply Z.eqb_eq in E; subst; exact I|intros I; exists r; split; [exact I|apply Z.eqb_refl]]. Qed.
Lemma mem_out r l : mem r l = false <-> ~ In r l.
Proof. rewrite <- mem_in. destruct (mem r l); split; congruence. Qed.

Definition agrees (e : env) : Prop := forall l, e_xa e l = xa_ok \/ e_xa e l = read_only.
Lemma agrees_tx e : agrees e -> forall l, to_tx (e_xa e l) = tx_ok.
Proof. intros G l. destruct (G l) as [-> | ->]; reflexivity. Qed.

(* the association with [x] is changed by [f], for the resources in [ids] *)
Definition moves (ids : list Z) (x : Z) (f : assoc -> assoc) (c c' : ctx) : Prop :=
  forall r y, A c' r y = if mem r ids && (y =? x) then f (A c r y) else A c r y.

Lemma moves_nil x f c : moves [] x f c c.
Proof. intros r y. reflexivity. Qed.

Lemma over_moves e op x rs : agrees e -> forall ids, NoDup ids -> incl ids rs -> forall c c' k, over e op x ids rs tx_ok c = (c', k) ->
  k = tx_ok /\ moves ids x (fun a => legal a op) c c'.
Proof.
  intros G. induction ids as [|q ids IH]; intros ND IN c c' k; cbn.
  - intros [= <- <-]. split; [reflexivity|apply moves_nil].
  - inversion ND as [|? ? NI ND']; subst. rewrite (proj2 (mem_in q rs) (IN q (or_introl eq_refl))). rewrite (agrees_tx e G). cbn [tx_add tx_eqb].
    intros H. apply IH in H; [|exact ND'|intros z Iz; apply IN; right; exact Iz]. destruct H as [-> M]. split; [reflexivity|]. intros r y. rewrite M, A_xa. cbn [mem existsb].
    fold (mem r ids). rewrite (Z.eqb_sym q r), (Z.eqb_sym x y). destruct (r =? q) eqn:E; cbn; [|reflexivity]. apply Z.eqb_eq in E. subst q. rewrite (proj2 (mem_out r ids) NI). cbn. reflexivity.
Qed.

Lemma try_start_moves e x : agrees e -> forall ids, NoDup ids -> forall c c' good bad, try_start e x ids c = (c', good, bad) ->
  bad = [] /\ moves ids x (fun a => legal a StartNew) c c'.
Proof.
  intros G. induction ids as [|q ids IH]; intros ND c c' good bad; cbn.
  - intros [= <- <- <-]. split; [reflexivity|apply moves_nil].
  - inversion ND as [|? ? NI ND']; subst. destruct (try_start e x ids _) as [[c2 g] b] eqn:E. apply (IH ND') in E. destruct E as [-> M]. intros H.
    assert (X : c' = c2 /\ bad = []). { destruct (G (c_log c)) as [-> | ->] in H; injection H as <- _ <-; auto. } destruct X as [-> ->]. split; [reflexivity|].
    intros r y. rewrite M, A_xa. cbn [mem existsb]. fold (mem r ids). rewrite (Z.eqb_sym q r), (Z.eqb_sym x y). destruct (r =? q) eqn:E; cbn; [|reflexivity].
    apply Z.eqb_eq in E. subst q. rewrite (proj2 (mem_out r ids) NI). cbn. reflexivity.
Qed.

(* may be started (again) *)
Definition startable (a : assoc) : Prop := a = NotAssociated \/ a = Ended.

Lemma join_each_moves e x known : agrees e -> forall ids, NoDup ids -> forall c c' k, join_each e x known ids tx_ok c = (c', k) ->
  k = tx_ok /\ (forall r y, mem r ids && (y =? x) = false -> A c' r y = A c r y) /\ (forall r, In r ids -> startable (A c r x) -> A c' r x = Associated).
Proof.
  intros G. induction ids as [|q ids IH]; intros ND c c' k; cbn.
  - intros [= <- <-]. split; [reflexivity|]. split; [reflexivity|]. intros r [].
  - inversion ND as [|? ? NI ND']; subst. rewrite (agrees_tx e G). cbn [tx_add tx_eqb]. intros H. apply (IH ND') in H. destruct H as (->&M1&M2). split; [reflexivity|]. split.
    + intros r y E. fold (mem r ids) in E. rewrite M1.
      * rewrite A_xa. rewrite (Z.eqb_sym q r), (Z.eqb_sym x y). destruct (r =? q); [|reflexivity]. cbn in E. rewrite E. reflexivity.
      * destruct (r =? q); [cbn in E; rewrite E; apply andb_false_r|exact E].
    + intros r [<-|I] S.
      * rewrite M1; [|rewrite (proj2 (mem_out q ids) NI); reflexivity]. rewrite A_xa, !Z.eqb_refl. cbn [andb]. destruct S as [-> | ->]; destruct (mem q known); reflexivity.
      * apply M2; [exact I|]. rewrite A_xa. destruct (q =? r) eqn:E; [apply Z.eqb_eq in E; subst; contradiction|]. exact S.
Qed.

(* ------------------------------------------------------------------ the transactions and the associations *)

Notation idt t := (x_id (t_id t)).
Definition foreign (t : txn) : bool := negb (is_null (t_id t)) && negb (owned t).

Record core (fixed : list Z) (ts : list txn) (a : Z -> Z -> assoc) (n k : Z) : Prop := mk_core {
  k_next : 1 <= n;
  k_nd : NoDup (filter (fun x => negb (x =? 0)) (map (fun t => idt t) ts));
  k_ids : forall t, In t ts -> idt t <> 0 -> idt t < n /\ t_inv t = fixed /\ (idt t < 0 -> owned t = false);
  k_held : forall t r, In t ts -> idt t <> 0 -> In r fixed -> a r (idt t) = if idt t =? k then Associated else AssociationSuspended;
  k_free : forall x r, ~ In x (map (fun t => idt t) ts) \/ x = 0 -> In r fixed -> a r x = NotAssociated \/ a r x = Ended \/ a r x = Settled;
  k_fresh : forall r x, n <= x -> a r x = NotAssociated;
  k_neg : forall r x, x <= 0 -> a r x <> Settled;
  k_out : forall r x, ~ In r fixed -> a r x = NotAssociated;
  k_for : (length (filter foreign ts) <= 1)%nat }.

Definition upd (fixed : list Z) (x : Z) (f : assoc -> assoc) (a a' : Z -> Z -> assoc) : Prop :=
  forall r y, a' r y = if mem r fixed && (y =? x) then f (a r y) else a r y.

Lemma upd_in fixed x f a a' r : upd fixed x f a a' -> In r fixed -> a' r x = f (a r x).
Proof. intros U I. rewrite U, (proj2 (mem_in r fixed) I), Z.eqb_refl. reflexivity. Qed.
Lemma upd_ne fixed x f a a' r y : upd fixed x f a a' -> y <> x -> a' r y = a r y.
Proof. intros U N. rewrite U, (proj2 (Z.eqb_neq y x) N), andb_false_r. reflexivity. Qed.
Lemma upd_out fixed x f a a' r y : upd fixed x f a a' -> ~ In r fixed -> a' r y = a r y.
Proof. intros U N. rewrite U, (proj2 (mem_out r fixed) N). reflexivity. Qed.

Lemma nd_map fixed ts a n k l1 t l2 : core fixed ts a n k -> ts = l1 ++ t :: l2 -> idt t <> 0 -> ~ In (idt t) (map (fun t => idt t) (l1 ++ l2)).
Proof.
  intros C -> N I. pose proof (k_nd _ _ _ _ _ C) as ND. rewrite map_app in ND. cbn [map] in ND. rewrite filter_app in ND. cbn [filter] in ND.
  rewrite (proj2 (Z.eqb_neq _ _) N) in ND. cbn [negb] in ND. apply NoDup_remove_2 in ND. apply ND. rewrite <- filter_app, <- map_app. apply filter_In. split; [exact I|].
  rewrite (proj2 (Z.eqb_neq _ _) N). reflexivity.
Qed.

Lemma in_map_id (ts : list txn) t : In t ts -> In (idt t) (map (fun t => idt t) ts).
Proof. intros I. apply (in_map (fun t => idt t)) in I. exact I. Qed.

(* the associated one is suspended *)
Lemma core_suspend fixed ts a n t a' : core fixed ts a n (idt t) -> In t ts -> idt t <> 0 -> upd fixed (idt t) (fun s => legal s EndSuspend) a a' -> core fixed ts a' n 0.
Proof.
  intros [H1 H2 H3 H4 H5 H6 H7 H8 H9] I N U. constructor; [exact H1|exact H2|exact H3|..|exact H9].
  - intros u r Iu Nu Ir. rewrite (proj2 (Z.eqb_neq _ _) Nu). destruct (Z.eq_dec (idt u) (idt t)) as [E|E].
    + rewrite E, (upd_in _ _ _ _ _ _ U Ir), (H4 t r I N Ir), Z.eqb_refl. reflexivity.
    + rewrite (upd_ne _ _ _ _ _ _ _ U E), (H4 u r Iu Nu Ir), (proj2 (Z.eqb_neq _ _) E). reflexivity.
  - intros x r O Ir. rewrite (upd_ne _ _ _ _ _ _ _ U); [exact (H5 x r O Ir)|]. intros ->. destruct O as [O|O]; [apply O, in_map_id; exact I|contradiction].
  - intros r x L. rewrite (upd_ne _ _ _ _ _ _ _ U); [exact (H6 r x L)|]. destruct (H3 t I N) as [L' _]. lia.
  - intros r x L. destruct (Z.eq_dec x (idt t)) as [->|E]; [|rewrite (upd_ne _ _ _ _ _ _ _ U E); exact (H7 r x L)].
    destruct (in_dec Z.eq_dec r fixed) as [Ir|Or]; [|rewrite (upd_out _ _ _ _ _ _ _ U Or); exact (H7 r _ L)]. rewrite (upd_in _ _ _ _ _ _ U Ir), (H4 t r I N Ir), Z.eqb_refl. discriminate.
  - intros r x O. rewrite (upd_out _ _ _ _ _ _ _ U O). exact (H8 r x O).
Qed.

Lemma core_resume fixed ts a n t a' : core fixed ts a n 0 -> In t ts -> idt t <> 0 -> upd fixed (idt t) (fun s => legal s StartResume) a a' -> core fixed ts a' n (idt t).
Proof.
  intros [H1 H2 H3 H4 H5 H6 H7 H8 H9] I N U. constructor; [exact H1|exact H2|exact H3|..|exact H9].
  - intros u r Iu Nu Ir. destruct (Z.eq_dec (idt u) (idt t)) as [E|E].
    + rewrite E, (upd_in _ _ _ _ _ _ U Ir), (H4 t r I N Ir), (proj2 (Z.eqb_neq _ _) N), Z.eqb_refl. reflexivity.
    + rewrite (upd_ne _ _ _ _ _ _ _ U E), (H4 u r Iu Nu Ir), (proj2 (Z.eqb_neq _ _) E), (proj2 (Z.eqb_neq _ _) Nu). reflexivity.
  - intros x r O Ir. rewrite (upd_ne _ _ _ _ _ _ _ U); [exact (H5 x r O Ir)|]. intros ->. destruct O as [O|O]; [apply O, in_map_id; exact I|contradiction].
  - intros r x L. rewrite (upd_ne _ _ _ _ _ _ _ U); [exact (H6 r x L)|]. destruct (H3 t I N) as [L' _]. lia.
  - intros r x L. destruct (Z.eq_dec x (idt t)) as [->|E]; [|rewrite (upd_ne _ _ _ _ _ _ _ U E); exact (H7 r x L)].
    destruct (in_dec Z.eq_dec r fixed) as [Ir|Or]; [|rewrite (upd_out _ _ _ _ _ _ _ U Or); exact (H7 r _ L)]. rewrite (upd_in _ _ _ _ _ _ U Ir), (H4 t r I N Ir), (proj2 (Z.eqb_neq _ _) N). discriminate.
  - intros r x O. rewrite (upd_out _ _ _ _ _ _ _ U O). exact (H8 r x O).
Qed.

Lemma core_push fixed ts a n t a' n' : core fixed ts a n 0 -> idt t <> 0 -> ~ In (idt t) (map (fun t => idt t) ts) -> n <= n' -> idt t < n' -> t_inv t = fixed -> (idt t < 0 -> owned t = false) ->
  (foreign t = true -> filter foreign ts = []) ->
  (forall r, In r fixed -> a' r (idt t) = Associated) -> (forall r y, mem r fixed && (y =? idt t) = false -> a' r y = a r y) -> core fixed (ts ++ [t]) a' n' (idt t).
Proof.
  intros [H1 H2 H3 H4 H5 H6 H7 H8 H9] N O LN L TI NEG FO AI AO.
  assert (NE : forall r y, y <> idt t -> a' r y = a r y). { intros r y E. apply AO. rewrite (proj2 (Z.eqb_neq _ _) E). apply andb_false_r. }
  assert (OUT : forall r y, ~ In r fixed -> a' r y = a r y). { intros r y E. apply AO. rewrite (proj2 (mem_out _ _) E). reflexivity. }
  constructor; [lia|..].
  - rewrite map_app, filter_app. cbn [map filter]. rewrite (proj2 (Z.eqb_neq _ _) N). cbn [negb].
    assert (X : forall (l : list Z) x, NoDup l -> ~ In x l -> NoDup (l ++ [x])).
    { induction l as [|z l IH]; intros x ND NI; [constructor; [auto|constructor]|]. inversion ND; subst. cbn. constructor.
      - rewrite in_app_iff. intros [I|[<-|[]]]; [contradiction|apply NI; left; reflexivity].
      - apply IH; [assumption|]. intros I. apply NI. right. exact I. }
    apply X; [exact H2|]. rewrite filter_In. tauto.
  - intros u Iu Nu. apply in_app_iff in Iu. destruct Iu as [Iu|[<-|[]]]; [|auto]. destruct (H3 u Iu Nu) as (X&Y&Z0). split; [lia|auto].
  - intros u r Iu Nu Ir. apply in_app_iff in Iu. destruct Iu as [Iu|[<-|[]]].
    + assert (E : idt u <> idt t) by (intros E; apply O; rewrite <- E; apply in_map_id; exact Iu).
      rewrite (NE _ _ E), (H4 u r Iu Nu Ir), (proj2 (Z.eqb_neq _ _) Nu), (proj2 (Z.eqb_neq _ _) E). reflexivity.
    + rewrite (AI r Ir), Z.eqb_refl. reflexivity.
  - intros x r Ox Ir. assert (E : x <> idt t). { intros ->. destruct Ox as [Ox|Ox]; [|contradiction]. apply Ox. rewrite map_app. apply in_app_iff. right. left. reflexivity. }
    rewrite (NE _ _ E). apply H5; [|exact Ir]. destruct Ox as [Ox|Ox]; [left|right; exact Ox]. intros I. apply Ox. rewrite map_app. apply in_app_iff. left. exact I.
  - intros r x Lx. rewrite NE; [apply H6; lia|lia].
  - intros r x Lx. destruct (Z.eq_dec x (idt t)) as [->|E]; [|rewrite NE by exact E; exact (H7 r x Lx)].
    destruct (in_dec Z.eq_dec r fixed) as [Ir|Or]; [rewrite (AI r Ir); discriminate|rewrite (OUT _ _ Or); exact (H7 r _ Lx)].
  - intros r x Or. rewrite (OUT _ _ Or). exact (H8 r x Or).
  - rewrite filter_app. cbn [filter]. destruct (foreign t); [rewrite (FO eq_refl); cbn; lia|rewrite app_nil_r; exact H9].
Qed.

Lemma core_remove fixed l1 t l2 a n k a' : core fixed (l1 ++ t :: l2) a n k -> idt t <> 0 -> upd fixed (idt t) (fun s => legal s EndSuccess) a a' ->
  core fixed (l1 ++ l2) a' n (if idt t =? k then 0 else k) /\ (forall r, In r fixed -> a' r (idt t) = Ended) /\ ~ In (idt t) (map (fun t => idt t) (l1 ++ l2)).
Proof.
  intros C N U. pose proof (nd_map _ _ _ _ _ l1 t l2 C eq_refl N) as NI. destruct C as [H1 H2 H3 H4 H5 H6 H7 H8 H9].
  assert (It : In t (l1 ++ t :: l2)) by (apply in_app_iff; right; left; reflexivity).
  assert (SUB : forall u, In u (l1 ++ l2) -> In u (l1 ++ t :: l2)) by (intros u; rewrite !in_app_iff; cbn; tauto).
  assert (EN : forall r, In r fixed -> a' r (idt t) = Ended). { intros r Ir. rewrite (upd_in _ _ _ _ _ _ U Ir), (H4 t r It N Ir). destruct (idt t =? k); reflexivity. }
  split; [|split; [exact EN|exact NI]]. constructor; [exact H1|..].
  - rewrite map_app in *. cbn [map] in H2. rewrite filter_app in *. cbn [filter] in H2. rewrite (proj2 (Z.eqb_neq _ _) N) in H2. cbn [negb] in H2. apply NoDup_remove_1 in H2. exact H2.
  - intros u Iu Nu. exact (H3 u (SUB u Iu) Nu).
  - intros u r Iu Nu Ir. assert (E : idt u <> idt t) by (intros E; apply NI; rewrite <- E; apply in_map_id; exact Iu).
    rewrite (upd_ne _ _ _ _ _ _ _ U E), (H4 u r (SUB u Iu) Nu Ir). destruct (idt t =? k) eqn:K; [|reflexivity]. apply Z.eqb_eq in K. subst k.
    rewrite (proj2 (Z.eqb_neq _ _) E), (proj2 (Z.eqb_neq _ _) Nu). reflexivity.
  - intros x r Ox Ir. destruct (Z.eq_dec x (idt t)) as [->|E]; [rewrite (EN r Ir); auto|]. rewrite (upd_ne _ _ _ _ _ _ _ U E). apply H5; [|exact Ir].
    destruct Ox as [Ox|Ox]; [left|right; exact Ox]. rewrite map_app in *. cbn [map]. rewrite in_app_iff in *. cbn [In]. intros [I|[I|I]]; [tauto|congruence|tauto].
  - intros r x L. rewrite (upd_ne _ _ _ _ _ _ _ U); [exact (H6 r x L)|]. destruct (H3 t It N) as [L' _]. lia.
  - intros r x L. destruct (Z.eq_dec x (idt t)) as [->|E]; [|rewrite (upd_ne _ _ _ _ _ _ _ U E); exact (H7 r x L)].
    destruct (in_dec Z.eq_dec r fixed) as [Ir|Or]; [rewrite (EN r Ir); discriminate|rewrite (upd_out _ _ _ _ _ _ _ U Or); exact (H7 r _ L)].
  - intros r x O. rewrite (upd_out _ _ _ _ _ _ _ U O). exact (H8 r x O).
  - rewrite filter_app in *. cbn [filter] in H9. rewrite app_length in *. destruct (foreign t); cbn in H9; lia.
Qed.

Lemma core_settle fixed ts a n k x a' : core fixed ts a n k -> ~ In x (map (fun t => idt t) ts) -> 0 < x < n ->
  (forall r y, y <> x -> a' r y = a r y) -> (forall r, ~ In r fixed -> a' r x = a r x) -> (forall r, In r fixed -> a' r x = Settled \/ a' r x = a r x) -> core fixed ts a' n k.
Proof.
  intros [H1 H2 H3 H4 H5 H6 H7 H8 H9] NI L NE OUT IN. constructor; [exact H1|exact H2|exact H3|..|exact H9].
  - intros u r Iu Nu Ir. rewrite NE; [exact (H4 u r Iu Nu Ir)|]. intros E. apply NI. rewrite <- E. apply in_map_id. exact Iu.
  - intros y r O Ir. destruct (Z.eq_dec y x) as [->|E]; [|rewrite NE by exact E; exact (H5 y r O Ir)]. destruct (IN r Ir) as [-> | ->]; [auto|]. exact (H5 x r (or_introl NI) Ir).
  - intros r y Ly. rewrite NE by lia. exact (H6 r y Ly).
  - intros r y Ly. rewrite NE by lia. exact (H7 r y Ly).
  - intros r y O. destruct (Z.eq_dec y x) as [->|E]; [rewrite (OUT r O)|rewrite NE by exact E]; exact (H8 r _ O).
Qed.

(* only what the transactions are called, what they involve and who owns them matter; not their order *)
Lemma core_same fixed ts ts' a n k : core fixed ts a n k -> map (fun t => (t_id t, t_inv t)) ts = map (fun t => (t_id t, t_inv t)) ts' -> core fixed ts' a n k.
Proof.
  intros [H1 H2 H3 H4 H5 H6 H7 H8 H9] E.
  assert (M : map (fun t => idt t) ts = map (fun t => idt t) ts'). { apply (f_equal (map (fun p => x_id (fst p)))) in E. rewrite !map_map in E. exact E. }
  assert (B : forall t', In t' ts' -> exists t, In t ts /\ t_id t = t_id t' /\ t_inv t = t_inv t').
  { intros t' I. apply (in_map (fun t => (t_id t, t_inv t))) in I. rewrite <- E in I. apply in_map_iff in I. destruct I as (t&X&I). injection X as X Y. eauto. }
  constructor; [exact H1|rewrite <- M; exact H2|..].
  - intros t' I N. destruct (B t' I) as (t&It&EI&EV). unfold owned in *. rewrite <- EI, <- EV in *. exact (H3 t It N).
  - intros t' r I N Ir. destruct (B t' I) as (t&It&EI&EV). rewrite <- EI in *. exact (H4 t r It N Ir).
  - rewrite <- M. exact H5.
  - exact H6. - exact H7. - exact H8.
  - assert (X : forall l l' : list txn, map (fun t => (t_id t, t_inv t)) l = map (fun t => (t_id t, t_inv t)) l' -> length (filter foreign l) = length (filter foreign l')).
    { induction l as [|u l IH]; destruct l' as [|u' l']; cbn; try discriminate; [reflexivity|]. intros [= X _ Y].
      assert (FE : foreign u = foreign u') by (unfold foreign, owned; rewrite X; reflexivity). rewrite FE. destruct (foreign u'); cbn; rewrite (IH _ Y); reflexivity. }
    rewrite <- (X _ _ E). exact H9.
Qed.
Lemma core_perm fixed ts ts' a n k : core fixed ts a n k -> Permutation.Permutation ts ts' -> core fixed ts' a n k.
Proof.
  intros [H1 H2 H3 H4 H5 H6 H7 H8 H9] P.
  assert (PM : Permutation.Permutation (map (fun t => idt t) ts) (map (fun t => idt t) ts')) by (apply Permutation.Permutation_map; exact P).
  assert (PF : forall (A : Type) (f : A -> bool) l l', Permutation.Permutation l l' -> Permutation.Permutation (filter f l) (filter f l')).
  { intros A0 f l l' Q. induction Q; cbn; [constructor|destruct (f x); auto|destruct (f x), (f y); auto; constructor|etransitivity; eauto]. }
  assert (B : forall t', In t' ts' -> In t' ts) by (intros t' I; apply (Permutation.Permutation_in _ (Permutation.Permutation_sym P)); exact I).
  constructor; [exact H1|..]; auto.
  - apply (Permutation.Permutation_NoDup (PF _ _ _ _ PM)). exact H2.
  - intros x r [O|O] Ir; apply H5; auto. left. intros I. apply O. apply (Permutation.Permutation_in _ PM). exact I.
  - rewrite <- (Permutation.Permutation_length (PF _ _ _ _ P)). exact H9.
Qed.
Lemma core_ext fixed ts a a' n k : core fixed ts a n k -> (forall r x, a' r x = a r x) -> core fixed ts a' n k.
Proof.
  intros [H1 H2 H3 H4 H5 H6 H7 H8 H9] E. constructor; auto; intros; rewrite E; auto.
Qed.

(* ------------------------------------------------------------------ the context *)

(* all are suspended, explicitly *)
Definition quiet (ts : list txn) : Prop := forall u, In u ts -> idt u = 0 \/ t_susp u = true.

Record XInv (fixed : list Z) (c : ctx) : Prop := mk_xinv {
  v_fixed : c_fixed c = fixed;
  v_dyn : c_dynamic c = [];
  v_empty : empty_ok c;
  v_core : core fixed (c_txs c) (A c) (c_next c) (in_tx c);
  v_stack : c_ctl c = Stacked \/ quiet (removelast (c_txs c)) }.

Lemma all_fixed fixed c : c_fixed c = fixed -> c_dynamic c = [] -> all c = fixed.
Proof. intros F D. unfold all. rewrite F, D. reflexivity. Qed.

Lemma end_all_moves e op t c c' k fixed : agrees e -> NoDup fixed -> all c = fixed -> t_inv t = fixed -> end_all e op t c = (c', k) ->
  k = tx_ok /\ upd fixed (idt t) (fun s => legal s op) (A c) (A c').
Proof.
  intros G ND AL TI. unfold end_all. rewrite AL, TI. destruct fixed as [|r fx]; [intros [= <- <-]; split; [reflexivity|apply moves_nil]|].
  intros H. apply (over_moves e op (idt t) (r :: fx) G (r :: fx) ND (incl_refl _)) in H. exact H.
Qed.

Lemma involve_all (l1 l2 : list Z) : incl l2 l1 -> fold_left (fun l r => add_unique r l) l2 l1 = l1.
Proof. induction l2 as [|r l2 IH]; intros I; cbn; [reflexivity|]. unfold add_unique at 2. rewrite (proj2 (mem_in r l1) (I r (or_introl eq_refl))). apply IH. intros z Iz. apply I. right. exact Iz. Qed.
Lemma involve_same rs t : incl rs (t_inv t) -> involve rs t = t.
Proof. intros I. unfold involve. rewrite involve_all by exact I. destruct t; reflexivity. Qed.
Lemma involve_new_aux (l2 l1 : list Z) : NoDup (l1 ++ l2) -> fold_left (fun l r => add_unique r l) l2 l1 = l1 ++ l2.
Proof.
  revert l1. induction l2 as [|r l2 IH]; intros l1 ND; cbn; [rewrite app_nil_r; reflexivity|]. unfold add_unique at 2.
  assert (NI : ~ In r l1). { apply NoDup_remove_2 in ND. rewrite in_app_iff in ND. tauto. }
  rewrite (proj2 (mem_out r l1) NI). rewrite IH; [rewrite <- app_assoc; reflexivity|]. rewrite <- app_assoc. exact ND.
Qed.
Lemma involve_new rs t : NoDup rs -> t_inv t = [] -> t_inv (involve rs t) = rs.
Proof. intros ND E. unfold involve. cbn. rewrite E. apply (involve_new_aux rs []). exact ND. Qed.

Lemma start_these_moves e op t c c' t1 k fixed : agrees e -> NoDup fixed -> t_inv (involve fixed t) = fixed -> start_these e op t fixed c = (c', t1, k) ->
  k = tx_ok /\ t1 = involve fixed t /\ upd fixed (idt t) (fun s => legal s op) (A c) (A c').
Proof.
  intros G ND TI H. pose proof (start_these_grow e op t fixed c c' t1 k H) as [_ ->]. unfold start_these in H. destruct fixed as [|r fx].
  - injection H as <- _ <-. split; [reflexivity|]. split; [reflexivity|apply moves_nil].
  - rewrite TI in H. destruct (over e op _ _ _ _ _) as [c1 code] eqn:E. injection H as <- <-.
    apply (over_moves e op _ (r :: fx) G (r :: fx) ND (incl_refl _)) in E. destruct E as [-> M]. split; [reflexivity|]. split; [reflexivity|exact M].
Qed.

Lemma in_tx_snoc c l t : c_txs c = l ++ [t] -> t_susp t = false -> in_tx c = idt t.
Proof. intros E S. rewrite in_tx_eq, (current_at_end c l t E S). reflexivity. Qed.
Lemma in_tx_susp c l t : empty_ok c -> c_txs c = l ++ [t] -> t_susp t = true -> in_tx c = 0.
Proof. intros [N _] E S. rewrite in_tx_eq. unfold current. apply split_last_some in E. rewrite E, S. apply is_null_spec. exact N. Qed.
Lemma in_tx_nil c : empty_ok c -> c_txs c = [] -> in_tx c = 0.
Proof. intros [N _] E. rewrite in_tx_eq. unfold current. rewrite E. cbn. apply is_null_spec. exact N. Qed.
Lemma in_tx_dec c : empty_ok c -> in_tx c = 0 \/ exists l, c_txs c = l ++ [current c] /\ t_susp (current c) = false /\ in_tx c = idt (current c) /\ idt (current c) <> 0.
Proof.
  intros EO. rewrite in_tx_eq. destruct (Z.eq_dec (idt (current c)) 0) as [E|N]; [left; exact E|right]. destruct (current_real c EO N) as (l&E&S&_). eauto.
Qed.

Lemma snoc_cases {B} (l : list B) : l = [] \/ exists l' x, l = l' ++ [x].
Proof. destruct l as [|y l] using rev_ind; [left; reflexivity|right; eauto]. Qed.

(* outside a transaction all are suspended *)
Lemma quiet_outside c : empty_ok c -> in_tx c = 0 -> c_ctl c = Stacked \/ quiet (removelast (c_txs c)) -> c_ctl c = Stacked \/ quiet (c_txs c).
Proof.
  intros EO Z0 [S|Q]; [left; exact S|right]. destruct (snoc_cases (c_txs c)) as [E|(l&t&E)]; [rewrite E; intros u []|].
  rewrite E in *. rewrite removelast_snoc in Q. intros u I. apply in_app_iff in I. destruct I as [I|[<-|[]]]; [exact (Q u I)|]. destruct (t_susp t) eqn:T; [auto|]. left. rewrite <- (in_tx_snoc c l t E T). exact Z0.
Qed.

(* a new transaction, nothing is associated *)
Lemma push_xinv fixed c c' t : empty_ok c' -> c_fixed c' = fixed -> c_dynamic c' = [] -> c_ctl c' = c_ctl c -> c_txs c' = c_txs c ++ [t] -> t_susp t = false -> idt t <> 0 ->
  core fixed (c_txs c ++ [t]) (A c') (c_next c') (idt t) -> (c_ctl c = Stacked \/ quiet (c_txs c)) -> XInv fixed c'.
Proof.
  intros EO F D CT TX S N C Q. constructor; [exact F|exact D|exact EO|..].
  - rewrite TX, (in_tx_snoc c' (c_txs c) t TX S). exact C.
  - rewrite CT, TX, removelast_snoc. exact Q.
Qed.

Lemma fresh_out fixed ts a n k : core fixed ts a n k -> ~ In n (map (fun t => idt t) ts).
Proof. intros C I. apply in_map_iff in I. destruct I as (t&E&I). pose proof (k_next _ _ _ _ _ C). destruct (k_ids _ _ _ _ _ C t I) as [L _]; [lia|]. lia. Qed.

Lemma begin_new_xinv e fixed c c' k : agrees e -> NoDup fixed -> c_fixed c = fixed -> c_dynamic c = [] -> empty_ok c -> core fixed (c_txs c) (A c) (c_next c) 0 ->
  (c_ctl c = Stacked \/ quiet (c_txs c)) -> begin_new e c = (c', k) -> XInv fixed c'.
Proof.
  intros G ND F D EO C Q H. pose proof (k_next _ _ _ _ _ C) as L1. unfold begin_new in H. destruct (try_start e (c_next c) (c_fixed c) _) as [[c1 good] bad] eqn:T.
  pose proof (try_start_grow _ _ _ _ _ _ _ T) as [(evs&G1&_) _]. rewrite F in T. apply (try_start_moves e (c_next c) G fixed ND) in T. destruct T as [-> M].
  injection H as <- <-. subst c1. set (t := involve (c_fixed c) (new_txn (mk_tid (c_next c) me))) in *.
  apply (push_xinv fixed c _ t); try reflexivity; try assumption.
  - cbn. lia.
  - apply (core_push fixed _ (A c) (c_next c)); cbn; try lia.
    + exact C.
    + exact (fresh_out _ _ _ _ _ C).
    + rewrite F. apply (involve_new_aux fixed []). exact ND.
    + unfold foreign, owned; cbn. rewrite andb_false_r. discriminate.
    + intros r Ir. specialize (M r (c_next c)). change (A (w_next (c_next c + 1) c)) with (A c) in M. change (A (grow evs (w_next (c_next c + 1) c)) r (c_next c) = Associated). rewrite M, (proj2 (mem_in r fixed) Ir), Z.eqb_refl.
      rewrite (k_fresh _ _ _ _ _ C r (c_next c)) by lia. reflexivity.
    + intros r y E. specialize (M r y). change (A (w_next (c_next c + 1) c)) with (A c) in M. rewrite E in M. exact M.
Qed.

Lemma begin_xinv e fixed c c' k : agrees e -> NoDup fixed -> XInv fixed c -> begin e c = (c', k) -> XInv fixed c'.
Proof.
  intros G ND X H. pose proof X as [F D EO C Q]. unfold begin in H. destruct (in_tx_dec c EO) as [Z0|(l&E&S&IT&N)].
  - assert (NU : is_null (t_id (current c)) = true) by (apply is_null_spec; rewrite <- in_tx_eq; exact Z0). rewrite NU in H. cbn [negb] in H. rewrite Z0 in C.
    destruct (t_dyn (current c)); [|injection H as <- <-; exact X]. apply (begin_new_xinv e fixed c c' k G ND F D EO C); [|exact H]. apply quiet_outside; assumption.
  - rewrite (proj2 (is_null_false _) N) in H. cbn [negb] in H. destruct (c_ctl c) eqn:CT; [injection H as <- <-; exact X|injection H as <- <-; exact X|].
    destruct (end_all e EndSuspend (current c) c) as [c1 code] eqn:EA. pose proof (end_all_grow _ _ _ _ _ _ EA) as (evs&G1&_).
    assert (I : In (current c) (c_txs c)) by (rewrite E; apply in_app_iff; right; left; reflexivity).
    destruct (k_ids _ _ _ _ _ C (current c) I N) as (_&TI&_). rewrite IT in C.
    apply (end_all_moves e EndSuspend (current c) c c1 code fixed G ND (all_fixed fixed c F D) TI) in EA. destruct EA as [-> U]. cbn [tx_eqb] in H. subst c1.
    apply (begin_new_xinv e fixed (grow evs c) c' k G ND F D EO); [|left; exact CT|exact H]. exact (core_suspend fixed _ _ _ _ _ C I N U).
Qed.

Lemma tm_core fixed ts ev c n k : core fixed ts (A c) n k -> (forall op r x c0, ev <> Xa op r x c0) -> core fixed ts (A (log ev c)) n k.
Proof. intros C N. apply (core_ext _ _ _ _ _ _ C). intros r x. apply A_other. exact N. Qed.

Lemma owned_pos fixed ts a n k t : core fixed ts a n k -> In t ts -> idt t <> 0 -> owned t = true -> 0 < idt t < n.
Proof. intros C I N O. destruct (k_ids _ _ _ _ _ C t I N) as (L&_&NEG). destruct (Z.lt_total (idt t) 0) as [X|[X|X]]; [rewrite (NEG X) in O; discriminate|contradiction|lia]. Qed.

Lemma commit_tx_core e fixed l1 t l2 c c' k n kk : agrees e -> NoDup fixed -> all c = fixed -> core fixed (l1 ++ t :: l2) (A c) n kk -> idt t <> 0 -> owned t = true -> commit_tx e t c = (c', k) ->
  core fixed (l1 ++ l2) (A c') n (if idt t =? kk then 0 else kk).
Proof.
  intros G ND AL C N O H. assert (I : In t (l1 ++ t :: l2)) by (apply in_app_iff; right; left; reflexivity). destruct (k_ids _ _ _ _ _ C t I N) as (_&TI&_).
  pose proof (owned_pos _ _ _ _ _ _ C I N O) as POS.
  unfold commit_tx in H. destruct (end_all e EndSuccess t c) as [c1 code] eqn:EA. pose proof (end_all_grow _ _ _ _ _ _ EA) as (evs&G1&_).
  apply (end_all_moves e EndSuccess t c c1 code fixed G ND AL TI) in EA. destruct EA as [-> U]. cbn [tx_eqb negb] in H. destruct (core_remove _ _ _ _ _ _ _ _ C N U) as (C1&EN&NI).
  destruct (local t && Nat.leb (length (t_inv t)) 1) eqn:LO.
  - destruct (t_inv t) as [|r q] eqn:TV; [injection H as <- <-; exact C1|]. unfold rm_commit in H. destruct (mem r (all c1)); [|injection H as <- <-; exact C1]. cbn [rm] in H. unfold rm in H. injection H as <- <-.
    assert (Ir : In r fixed) by (rewrite <- TI; left; reflexivity).
    apply (core_settle fixed _ (A c1) n _ (idt t)); [exact C1|exact NI|exact POS|..].
    + intros r' y E. rewrite A_xa, (proj2 (Z.eqb_neq (idt t) y) (fun X => E (eq_sym X))), andb_false_r. reflexivity.
    + intros r' E. rewrite A_xa, (proj2 (Z.eqb_neq r r')); [reflexivity|]. intros ->. contradiction.
    + intros r' Ir'. rewrite A_xa. destruct ((r =? r') && (idt t =? idt t)); [|auto]. rewrite (EN r' Ir'). auto.
  - destruct (e_tm e (c_log c1)) as [st kc]. set (c2 := log _ c1) in H. assert (C2 : core fixed (l1 ++ l2) (A c2) n (if idt t =? kk then 0 else kk)) by (apply tm_core; [exact C1|discriminate]).
    destruct st; [destruct (c_ret c2)|..]; injection H as <- <-; try exact C2; apply tm_core; try exact C2; discriminate.
Qed.

Lemma rollback_each_core e t fixed ts n kk : 0 < idt t < n -> ~ In (idt t) (map (fun t => idt t) ts) -> forall rs c c' code k, NoDup rs -> all c = fixed -> core fixed ts (A c) n kk ->
  (forall r, In r rs -> In r fixed -> A c r (idt t) = Ended) -> rollback_each e t rs code c = (c', k) -> core fixed ts (A c') n kk.
Proof.
  intros POS NI. induction rs as [|r rs IH]; intros c c' code k ND AL C EN H; cbn in H; [injection H as <- <-; exact C|]. inversion ND as [|? ? NR ND']; subst.
  unfold rm_rollback in H. destruct (mem r (all c)) eqn:M; cbn in H.
  - apply mem_in in M. refine (IH (log _ c) _ _ _ ND' _ _ _ H); [reflexivity|..].
    + apply (core_settle (all c) _ (A c) n _ (idt t)); [exact C|exact NI|exact POS|..].
      * intros r' y E. rewrite A_xa, (proj2 (Z.eqb_neq (idt t) y) (fun X => E (eq_sym X))), andb_false_r. reflexivity.
      * intros r' E. rewrite A_xa, (proj2 (Z.eqb_neq r r')); [reflexivity|]. intros ->. contradiction.
      * intros r' Ir'. rewrite A_xa. destruct (r =? r') eqn:E; cbn [andb]; [|auto]. apply Z.eqb_eq in E. subst r'. rewrite Z.eqb_refl, (EN r (or_introl eq_refl) M). auto.
    + intros r' Ir' If. rewrite A_xa. destruct (r =? r') eqn:E; cbn [andb]; [apply Z.eqb_eq in E; subst; contradiction|]. apply EN; [right; exact Ir'|exact If].
  - refine (IH _ _ _ _ ND' eq_refl C _ H). intros r' Ir' If. apply EN; [right; exact Ir'|exact If].
Qed.

Lemma insert_sorted r l : forall z, In z (insert r l) <-> z = r \/ In z l.
Proof.
  induction l as [|x l IH]; intros z; cbn; [intuition|]. destruct (r <? x); [cbn; intuition|]. destruct (r =? x) eqn:E; [apply Z.eqb_eq in E; subst; cbn; intuition|]. cbn. rewrite IH. intuition.
Qed.
Inductive asc : list Z -> Prop := asc_nil : asc [] | asc_cons x l : (forall y, In y l -> x < y) -> asc l -> asc (x :: l).
Lemma insert_asc r l : asc l -> asc (insert r l).
Proof.
  induction 1 as [|x l H A0 IH]; cbn; [constructor; [intros y []|constructor]|]. destruct (r <? x) eqn:L; [apply Z.ltb_lt in L; constructor; [intros y [<-|I]; [exact L|specialize (H y I); lia]|constructor; assumption]|].
  destruct (r =? x) eqn:E; [constructor; assumption|]. apply Z.ltb_ge in L. apply Z.eqb_neq in E. constructor; [|exact IH]. intros y I. apply insert_sorted in I. destruct I as [-> |I]; [lia|exact (H y I)].
Qed.
Lemma asc_nodup l : asc l -> NoDup l.
Proof. induction 1 as [|x l H A0 IH]; constructor; [|exact IH]. intros I. specialize (H x I). lia. Qed.
Lemma sort_unique_nodup l : NoDup (sort_unique l).
Proof. apply asc_nodup. unfold sort_unique. induction l as [|r l IH]; cbn; [constructor|apply insert_asc; exact IH]. Qed.

Lemma rollback_tx_core e fixed l1 t l2 c c' k n kk : agrees e -> NoDup fixed -> all c = fixed -> core fixed (l1 ++ t :: l2) (A c) n kk -> idt t <> 0 -> owned t = true -> rollback_tx e t c = (c', k) ->
  core fixed (l1 ++ l2) (A c') n (if idt t =? kk then 0 else kk).
Proof.
  intros G ND AL C N O H. assert (I : In t (l1 ++ t :: l2)) by (apply in_app_iff; right; left; reflexivity). destruct (k_ids _ _ _ _ _ C t I N) as (_&TI&_).
  pose proof (owned_pos _ _ _ _ _ _ C I N O) as POS.
  unfold rollback_tx in H. destruct (end_all e EndSuccess t c) as [c1 code] eqn:EA. pose proof (end_all_grow _ _ _ _ _ _ EA) as (evs&G1&_).
  apply (end_all_moves e EndSuccess t c c1 code fixed G ND AL TI) in EA. destruct EA as [-> U]. cbn [tx_eqb negb] in H. destruct (core_remove _ _ _ _ _ _ _ _ C N U) as (C1&EN&NI).
  destruct (local t) eqn:LO.
  - refine (rollback_each_core e t fixed _ n _ POS NI _ c1 c' tx_ok k (sort_unique_nodup _) _ C1 _ H); [rewrite G1; exact AL|]. intros r _ Ir. exact (EN r Ir).
  - injection H as <- <-. apply tm_core; [exact C1|discriminate].
Qed.

(* one transaction leaves the end, and what is then current continues *)
Lemma continuation_xinv e fixed c c' code k : agrees e -> NoDup fixed -> c_fixed c = fixed -> c_dynamic c = [] -> empty_ok c -> core fixed (c_txs c) (A c) (c_next c) 0 ->
  (c_ctl c = Stacked \/ quiet (c_txs c)) -> continuation e code c = (c', k) -> XInv fixed c'.
Proof.
  intros G ND F D EO C Q H.
  assert (OUT : c_ctl c <> Stacked -> in_tx c = 0).
  { intros NS. destruct Q as [Q|Q]; [contradiction|]. destruct (in_tx_dec c EO) as [Z0|(l&E&S&IT&N)]; [exact Z0|]. destruct (Q (current c)) as [X|X]; [rewrite E; apply in_app_iff; right; left; reflexivity|contradiction|congruence]. }
  assert (QR : c_ctl c = Stacked \/ quiet (removelast (c_txs c))).
  { destruct Q as [Q|Q]; [left; exact Q|right]. destruct (snoc_cases (c_txs c)) as [E|(l&t&E)]; [rewrite E; intros u []|]. rewrite E in *. rewrite removelast_snoc. intros u I. apply Q, in_app_iff. left. exact I. }
  unfold continuation in H. destruct (c_ctl c) eqn:CT.
  - injection H as <- <-. constructor; [exact F|exact D|exact EO|rewrite OUT by discriminate; exact C|rewrite CT; exact QR].
  - destruct (begin e c) as [c1 k1] eqn:B. injection H as <- <-. refine (begin_xinv e fixed c c1 k1 G ND _ B). constructor; [exact F|exact D|exact EO|rewrite OUT by discriminate; exact C|rewrite CT; exact QR].
  - destruct (in_tx_dec c EO) as [Z0|(l&E&S&IT&N)].
    + assert (NU : is_null (t_id (current c)) = true) by (apply is_null_spec; rewrite <- in_tx_eq; exact Z0). rewrite NU in H. injection H as <- <-.
      constructor; [exact F|exact D|exact EO|rewrite Z0; exact C|rewrite CT; exact QR].
    + rewrite (proj2 (is_null_false _) N) in H. destruct (start_these e StartResume (current c) (all c) c) as [[c1 t1] k1] eqn:ST. pose proof (start_these_grow _ _ _ _ _ _ _ _ ST) as [(evs&G1&_) _].
      assert (I : In (current c) (c_txs c)) by (rewrite E; apply in_app_iff; right; left; reflexivity).
      destruct (k_ids _ _ _ _ _ C (current c) I N) as (_&TI&_). rewrite (all_fixed fixed c F D) in ST.
      assert (IV : involve fixed (current c) = current c) by (apply involve_same; rewrite TI; apply incl_refl).
      apply (start_these_moves e StartResume (current c) c c1 t1 k1 fixed G ND) in ST; [|rewrite IV; exact TI]. destruct ST as (->&->&U). injection H as <- <-. rewrite IV. subst c1.
      assert (SC : set_current (current c) (grow evs c) = grow evs c). { rewrite (set_current_real (grow evs c) _ l (current c) E S). rewrite <- E. destruct c; reflexivity. }
      rewrite SC. constructor; [exact F|exact D|exact EO|..|left; exact CT]. change (in_tx (grow evs c)) with (in_tx c). rewrite IT. exact (core_resume _ _ _ _ _ _ C I N U).
Qed.

Lemma A_grow evs c : Forall (fun ev => exists p, ev = Discard p) evs -> forall r x, A (grow evs c) r x = A c r x.
Proof.
  intros F r x. unfold A. cbn [grow c_log]. rewrite assoc_app. induction F as [|ev evs (p&->) F IH]; [reflexivity|]. exact IH.
Qed.

Lemma core_clear fixed ts a n k : core fixed ts a n k -> (forall t, In t ts -> idt t = 0) -> core fixed [] a n 0.
Proof.
  intros [H1 H2 H3 H4 H5 H6 H7 H8 H9] Z0. constructor; [exact H1|constructor|intros t []|intros t r []|..|exact H6|exact H7|exact H8|cbn; lia].
  intros x r _ Ir. apply H5; [|exact Ir]. destruct (Z.eq_dec x 0) as [->|N]; [right; reflexivity|left]. intros I. apply in_map_iff in I. destruct I as (t&<-&I). apply N, Z0, I.
Qed.

Lemma complete_each_core e b fixed n : agrees e -> NoDup fixed -> forall mine rest c c' code k kk, all c = fixed -> core fixed (mine ++ rest) (A c) n kk ->
  (forall t, In t mine -> idt t <> 0 /\ owned t = true) -> complete_each e b mine code c = (c', k) -> exists kk', core fixed rest (A c') n kk'.
Proof.
  intros G ND. induction mine as [|t mine IH]; intros rest c c' code k kk AL C OW H; cbn in H; [injection H as <- <-; eauto|].
  destruct (if b && (t_state t =? active) then commit_tx e t c else rollback_tx e t c) as [c1 k1] eqn:E. destruct (OW t (or_introl eq_refl)) as [N O].
  assert (X : core fixed (mine ++ rest) (A c1) n (if idt t =? kk then 0 else kk) /\ exists evs, c1 = grow evs c).
  { destruct (b && (t_state t =? active)).
    - split; [exact (commit_tx_core e fixed [] t (mine ++ rest) c c1 k1 n kk G ND AL C N O E)|]. apply commit_tx_grow in E. destruct E as (evs&->&_). eauto.
    - split; [exact (rollback_tx_core e fixed [] t (mine ++ rest) c c1 k1 n kk G ND AL C N O E)|]. apply rollback_tx_grow in E. destruct E as (evs&->&_). eauto. }
  destruct X as [C1 (evs&G1)]. refine (IH rest c1 c' _ k _ _ C1 _ H); [rewrite G1; exact AL|]. intros u I. apply OW. right. exact I.
Qed.

Lemma filter_split {B} (f : B -> bool) l : Permutation.Permutation l (filter f l ++ filter (fun x => negb (f x)) l).
Proof. induction l as [|x l IH]; cbn; [constructor|]. destruct (f x); cbn; [constructor; exact IH|apply Permutation.Permutation_cons_app; exact IH]. Qed.

Lemma finalize_xinv e b fixed c c' s : agrees e -> NoDup fixed -> XInv fixed c -> finalize e b c = (c', s) -> XInv fixed c'.
Proof.
  intros G ND [F D EO C Q] H. pose proof (finalize_grow e b c c' s H) as (evs0&G0&_).
  assert (X : core fixed [] (A c') (c_next c) 0).
  { unfold finalize in H. destruct (pending_check (c_txs c) m_ok (w_txs [] c)) as [c1 r1] eqn:P. apply pending_check_grow in P. destruct P as (ev1&G1&F1).
    set (ts := c_txs c) in *. set (act := filter (fun t => negb (is_null (t_id t))) ts) in *. set (mine := filter owned act) in *. set (others := filter (fun t => negb (owned t)) act) in *.
    set (nulls := filter (fun t => negb (negb (is_null (t_id t)))) ts).
    assert (PE : Permutation.Permutation ts (mine ++ others ++ nulls)).
    { etransitivity; [apply (filter_split (fun t => negb (is_null (t_id t))))|]. fold act. fold nulls. rewrite app_assoc. apply Permutation.Permutation_app_tail. apply filter_split. }
    assert (C1 : core fixed (mine ++ others ++ nulls) (A c1) (c_next c) (in_tx c)).
    { apply (core_perm fixed ts); [|exact PE]. apply (core_ext _ _ _ _ _ _ C). intros r x. rewrite G1. rewrite (A_grow ev1 _ F1). reflexivity. }
    assert (AL1 : all c1 = fixed) by (rewrite G1; exact (all_fixed fixed c F D)).
    destruct (complete_each e b mine tx_ok c1) as [c2 code] eqn:CE.
    assert (OM : forall t, In t mine -> idt t <> 0 /\ owned t = true). { intros t I. apply filter_In in I. destruct I as [I O]. apply filter_In in I. destruct I as [_ N]. apply negb_true_iff, is_null_false in N. auto. }
    pose proof (complete_each_grow _ _ _ _ _ _ _ CE) as (ev2&G2&_).
    apply (complete_each_core e b fixed (c_next c) G ND mine (others ++ nulls) c1 c2 tx_ok code (in_tx c) AL1 C1 OM) in CE. destruct CE as (k2&C2).
    assert (NN : forall t, In t nulls -> idt t = 0). { intros t I. apply filter_In in I. destruct I as [_ N]. rewrite negb_involutive in N. apply is_null_spec. exact N. }
    assert (LE : (length others <= 1)%nat).
    { pose proof (k_for _ _ _ _ _ C2) as L. rewrite filter_app, app_length in L. assert (FO : filter foreign others = others).
      { assert (Y : forall l, (forall t, In t l -> foreign t = true) -> filter foreign l = l). { induction l as [|u l IH]; intros Y; cbn; [reflexivity|]. rewrite (Y u (or_introl eq_refl)), IH; [reflexivity|]. intros v I. apply Y. right. exact I. }
        apply Y. intros t I. apply filter_In in I. destruct I as [I O]. apply filter_In in I. destruct I as [_ N]. unfold foreign. rewrite N, O. reflexivity. }
      rewrite FO in L. lia. }
    assert (ON : forall t, In t others -> idt t <> 0). { intros t I. apply filter_In in I. destruct I as [I _]. apply filter_In in I. destruct I as [_ N]. apply negb_true_iff, is_null_false in N. exact N. }
    destruct others as [|t o] eqn:OE.
    - injection H as <- <-. exact (core_clear _ _ _ _ _ C2 NN).
    - destruct o as [|t2 o]; [|cbn in LE; lia]. cbn [app] in C2. destruct (end_all e EndSuccess t c2) as [c3 k3] eqn:EA. injection H as <- <-.
      pose proof (ON t (or_introl eq_refl)) as N.
      destruct (k_ids _ _ _ _ _ C2 t (or_introl eq_refl) N) as (_&TI&_).
      apply (end_all_moves e EndSuccess t c2 c3 k3 fixed G ND) in EA; [|rewrite G2; exact AL1|exact TI]. destruct EA as [_ U].
      destruct (core_remove fixed [] t nulls _ _ _ _ C2 N U) as (C3&_&_). exact (core_clear _ _ _ _ _ C3 NN). }
  subst c'. constructor; [exact F|exact D|exact EO|..].
  - rewrite (in_tx_nil (grow evs0 (w_txs [] c)) EO eq_refl). exact X.
  - right. intros u [].
Qed.

Definition allowed (i : call) (c : ctx) : Prop :=
  match i with
  | SetControl _ => False
  | Join t => held c = [] /\ (x_id t = 0 \/ (x_id t < 0 /\ x_own t <> me))
  | Start => held c = []
  | Branch t => held c = [] /\ x_own t <> me
  | _ => True
  end.

Lemma held_nil c : held c = [] -> c_txs c = [].
Proof. unfold held. apply map_eq_nil. Qed.

(* a change that the resources do not notice *)
Lemma same_xinv fixed c ts' em : XInv fixed c -> map (fun t => (t_id t, t_inv t, t_susp t)) (c_txs c) = map (fun t => (t_id t, t_inv t, t_susp t)) ts' ->
  is_null (t_id em) = true -> t_susp em = false -> XInv fixed (w_empty em (w_txs ts' c)).
Proof.
  intros [F D EO C Q] M N S. assert (EO' : empty_ok (w_empty em (w_txs ts' c))) by (split; assumption).
  assert (IT : in_tx (w_empty em (w_txs ts' c)) = in_tx c).
  { destruct (snoc_cases (c_txs c)) as [E|(l&t&E)].
    - assert (E' : ts' = []) by (rewrite E in M; destruct ts'; [reflexivity|discriminate]). subst ts'. rewrite (in_tx_nil _ EO' eq_refl), (in_tx_nil _ EO E). reflexivity.
    - destruct (snoc_cases ts') as [E'|(l'&t'&E')]; [rewrite E, E', map_app in M; destruct (map _ l); discriminate|].
      rewrite E, E', !map_app in M. cbn [map] in M. apply app_inj_tail in M. destruct M as [_ [= TI _ TS]]. destruct (t_susp t) eqn:T.
      + rewrite (in_tx_susp c l t EO E T), (in_tx_susp (w_empty em (w_txs ts' c)) l' t' EO' E'); [reflexivity|congruence].
      + rewrite (in_tx_snoc c l t E T), (in_tx_snoc (w_empty em (w_txs ts' c)) l' t' E'); [congruence|congruence]. }
  constructor; [exact F|exact D|exact EO'|..].
  - rewrite IT. apply (core_same _ (c_txs c)); [exact C|]. apply (f_equal (map (fun p => fst p))) in M. rewrite !map_map in M. exact M.
  - cbn. destruct Q as [Q|Q]; [left; exact Q|right].
    assert (Y : forall l l' : list txn, map (fun t => (t_id t, t_inv t, t_susp t)) l = map (fun t => (t_id t, t_inv t, t_susp t)) l' -> quiet (removelast l) -> quiet (removelast l')).
    { intros l l' ML QL. destruct (snoc_cases l) as [E|(a&t&E)]; destruct (snoc_cases l') as [E'|(a'&t'&E')]; subst l l'.
      - intros u []. - rewrite map_app in ML. destruct (map _ a'); discriminate. - intros u [].
      - rewrite removelast_snoc in *. rewrite !map_app in ML. apply app_inj_tail in ML. destruct ML as [ML _]. intros u I. apply (in_map (fun t => (t_id t, t_inv t, t_susp t))) in I. rewrite <- ML in I.
        apply in_map_iff in I. destruct I as (v&[= V1 _ V2]&I). rewrite <- V1, <- V2. exact (QL v I). }
    exact (Y _ _ M Q).
Qed.
Lemma w_same c ts : w_empty (c_empty c) (w_txs ts c) = w_txs ts c. Proof. destruct c; reflexivity. Qed.
Lemma set_current_xinv fixed c t : XInv fixed c -> t_id t = t_id (current c) -> t_inv t = t_inv (current c) -> t_susp t = t_susp (current c) -> XInv fixed (set_current t c).
Proof.
  intros X I V S. pose proof (v_empty _ _ X) as [N0 S0]. unfold set_current, current in *. destruct (split_last (c_txs c)) as [[l u]|] eqn:E.
  - destruct (t_susp u) eqn:T.
    + assert (W : w_empty t c = w_empty t (w_txs (c_txs c) c)) by (destruct c; reflexivity). rewrite W. apply same_xinv; [exact X|reflexivity|rewrite I; exact N0|congruence].
    + rewrite <- w_same. apply same_xinv; [exact X| |exact N0|exact S0]. apply split_last_some in E. rewrite E, !map_app. cbn. rewrite I, V, S. reflexivity.
  - assert (W : w_empty t c = w_empty t (w_txs (c_txs c) c)) by (destruct c; reflexivity). rewrite W. apply same_xinv; [exact X|reflexivity|rewrite I; exact N0|congruence].
Qed.

Lemma core_null fixed ts a n k t : core fixed ts a n k -> idt t = 0 -> core fixed (ts ++ [t]) a n k.
Proof.
  intros [H1 H2 H3 H4 H5 H6 H7 H8 H9] Z0. constructor; [exact H1|..|exact H6|exact H7|exact H8|].
  - rewrite map_app, filter_app. cbn. rewrite Z0. cbn. rewrite app_nil_r. exact H2.
  - intros u I N. apply in_app_iff in I. destruct I as [I|[<-|[]]]; [exact (H3 u I N)|contradiction].
  - intros u r I N. apply in_app_iff in I. destruct I as [I|[<-|[]]]; [exact (H4 u r I N)|contradiction].
  - intros x r O Ir. apply H5; [|exact Ir]. destruct O as [O|O]; [left|right; exact O]. intros I. apply O. rewrite map_app. apply in_app_iff. left. exact I.
  - rewrite filter_app. cbn. unfold foreign at 2, is_null. rewrite Z0. cbn. rewrite app_nil_r. exact H9.
Qed.

Lemma step_xinv e fixed c i : agrees e -> NoDup fixed -> XInv fixed c -> allowed i c -> XInv fixed (fst (step e i c)).
Proof.
  intros G ND X AL. pose proof X as [F D EO C Q]. destruct i; cbn [step]; unfold tx_result; cbn [fst].
  - destruct (begin e c) as [c' k] eqn:B. exact (begin_xinv e fixed c c' k G ND X B).
  - destruct (in_tx_dec c EO) as [Z0|(l&E&S&IT&N)].
    + rewrite commit_refused; [exact X|]. destruct (may_commit (current c)) eqn:M; [|reflexivity]. apply may_commit_spec in M. rewrite in_tx_eq in Z0. tauto.
    + destruct (may_commit (current c)) eqn:M; [|rewrite commit_refused by exact M; exact X]. rewrite (commit_accepted e c (current c) l E S M).
      apply may_commit_spec in M. destruct M as (_&O&_). destruct (commit_tx e (current c) (w_txs l c)) as [c1 code] eqn:CT. pose proof (commit_tx_grow _ _ _ _ _ CT) as (evs&G1&_).
      assert (AL1 : all (w_txs l c) = fixed) by exact (all_fixed fixed c F D). rewrite E, IT in C.
      apply (commit_tx_core e fixed l (current c) [] _ c1 code (c_next c) (idt (current c)) G ND AL1 C N) in CT; [|apply Z.eqb_eq; exact O]. rewrite Z.eqb_refl, app_nil_r in CT. subst c1.
      destruct (continuation e code _) as [c' k] eqn:CO. apply (continuation_xinv e fixed (grow evs (w_txs l c)) c' code k G ND F D EO CT); [|exact CO]. rewrite E, removelast_snoc in Q. exact Q.
  - destruct (in_tx_dec c EO) as [Z0|(l&E&S&IT&N)].
    + rewrite rollback_refused; [exact X|]. destruct (may_rollback (current c)) eqn:M; [|reflexivity]. apply may_rollback_spec in M. rewrite in_tx_eq in Z0. tauto.
    + destruct (may_rollback (current c)) eqn:M; [|rewrite rollback_refused by exact M; exact X]. rewrite (rollback_accepted e c (current c) l E S M).
      apply may_rollback_spec in M. destruct M as (_&O). destruct (rollback_tx e (current c) (w_txs l c)) as [c1 code] eqn:CT. pose proof (rollback_tx_grow _ _ _ _ _ CT) as (evs&G1&_).
      assert (AL1 : all (w_txs l c) = fixed) by exact (all_fixed fixed c F D). rewrite E, IT in C.
      apply (rollback_tx_core e fixed l (current c) [] _ c1 code (c_next c) (idt (current c)) G ND AL1 C N) in CT; [|apply Z.eqb_eq; exact O]. rewrite Z.eqb_refl, app_nil_r in CT. subst c1.
      destruct (continuation e code _) as [c' k] eqn:CO. apply (continuation_xinv e fixed (grow evs (w_txs l c)) c' code k G ND F D EO CT); [|exact CO]. rewrite E, removelast_snoc in Q. exact Q.
  - unfold suspend. destruct given; cbn [negb]; [|exact X]. destruct (in_tx_dec c EO) as [Z0|(l&E&S&IT&N)].
    + rewrite in_tx_eq in Z0. apply is_null_spec in Z0. rewrite Z0. exact X.
    + rewrite (proj2 (is_null_false _) N), (set_current_real c _ l (current c) E S). destruct (end_all e EndSuspend _ _) as [c1 code] eqn:EA. pose proof (end_all_grow _ _ _ _ _ _ EA) as (evs&G1&_).
      assert (I : In (current c) (c_txs c)) by (rewrite E; apply in_app_iff; right; left; reflexivity). destruct (k_ids _ _ _ _ _ C (current c) I N) as (_&TI&_). rewrite IT in C.
      apply (end_all_moves e EndSuspend (w_susp true (current c)) _ c1 code fixed G ND (all_fixed fixed c F D : all (w_txs _ c) = fixed) TI) in EA. destruct EA as [-> U]. change (tx_eqb tx_ok tx_ok) with true; cbn [fst]. subst c1.
      pose proof (core_suspend fixed _ _ _ _ _ C I N U) as C1. constructor; [exact F|exact D|exact EO|..].
      * assert (IT' : in_tx (grow evs (w_txs (l ++ [w_susp true (current c)]) c)) = 0) by (apply (in_tx_susp _ l (w_susp true (current c))); [exact EO|reflexivity|reflexivity]).
        match goal with |- core _ _ _ _ ?k => change k with (in_tx (grow evs (w_txs (l ++ [w_susp true (current c)]) c))) end. rewrite IT'. apply (core_same fixed (c_txs c)); [exact C1|]. rewrite E at 1. cbn [c_txs grow w_txs]. rewrite !map_app. reflexivity.
      * cbn. rewrite removelast_snoc. rewrite E, removelast_snoc in Q. exact Q.
  - unfold resume. destruct x as [x|]; [|exact X]. destruct (x =? 0) eqn:X0; [exact X|]. apply Z.eqb_neq in X0. destruct (in_tx_dec c EO) as [Z0|(l&E&S&IT&N)].
    2:{ rewrite (proj2 (is_null_false _) N), S. exact X. }
    pose proof Z0 as Z0'. rewrite in_tx_eq in Z0'. apply is_null_spec in Z0'. rewrite Z0'. cbn [negb andb]. destruct (t_dyn (current c)); [|exact X].
    destruct (split_at x (c_txs c)) as [[[a t] b]|] eqn:SA; [|exact X]. apply split_at_some in SA. destruct SA as (E&XI&_). destruct (t_susp t) eqn:T; cbn [negb]; [|exact X].
    assert (I : In t (c_txs c)) by (rewrite E; apply in_app_iff; right; left; reflexivity). assert (N : idt t <> 0) by congruence. destruct (k_ids _ _ _ _ _ C t I N) as (_&TI&_). rewrite F.
    destruct (start_these e StartResume (w_susp false t) fixed c) as [[c1 t1] code] eqn:ST. pose proof (start_these_grow _ _ _ _ _ _ _ _ ST) as [(evs&G1&_) _].
    assert (IV : involve fixed (w_susp false t) = w_susp false t) by (apply involve_same; cbn; rewrite TI; apply incl_refl).
    apply (start_these_moves e StartResume (w_susp false t) c c1 t1 code fixed G ND) in ST; [|rewrite IV; exact TI]. destruct ST as (->&->&U). change (tx_eqb tx_ok tx_ok) with true; cbn [fst]. rewrite IV. subst c1.
    rewrite Z0 in C. pose proof (core_resume _ _ _ _ _ _ C I N U) as C1. constructor; [exact F|exact D|exact EO|..].
    + rewrite (in_tx_snoc _ (b ++ a) (w_susp false t)); [|cbn; rewrite app_assoc; reflexivity|reflexivity]. apply (core_same fixed (b ++ a ++ [t])); [|cbn; rewrite !map_app; reflexivity].
      apply (core_perm fixed (c_txs c)); [exact C1|]. rewrite E. transitivity ((t :: b) ++ a); [apply Permutation.Permutation_app_comm|]. cbn. rewrite app_assoc. apply Permutation.Permutation_cons_append.
    + cbn. rewrite app_assoc, removelast_snoc. destruct (quiet_outside c EO Z0 Q) as [Y|Y]; [left; exact Y|right]. intros u Iu. apply Y. rewrite E. apply in_app_iff in Iu. apply in_app_iff. cbn. tauto.
  - destruct AL.
  - constructor; assumption.
  - exact X.
  - destruct (is_null (t_id (current c))); [exact X|]. apply set_current_xinv; [exact X|reflexivity|reflexivity|reflexivity].
  - rewrite <- w_same. destruct EO as [N0 S0]. apply same_xinv; [exact X| |exact N0|exact S0]. generalize (c_txs c) as l. induction l as [|t l IH]; cbn; [reflexivity|]. destruct (mem corr (t_pend t)); cbn; [|rewrite IH; reflexivity].
    destruct (t_state t <? s); reflexivity.
  - destruct (is_null (t_id (current c))); [exact X|]. apply set_current_xinv; [exact X|reflexivity|reflexivity|reflexivity].
  - unfold register. rewrite D. exact X.
  - unfold unregister. destruct (negb _); [exact X|]. destruct (mem r _); [|exact X]. apply set_current_xinv; [exact X|reflexivity|reflexivity|reflexivity].
  - destruct AL as [HN AL]. apply held_nil in HN. unfold join. destruct (is_null t) eqn:NU.
    + apply is_null_spec in NU. constructor; [exact F|exact D|exact EO|..].
      * cbn [fst w_txs c_txs c_next c_log]. assert (IT : in_tx (w_txs (c_txs c ++ [new_txn t]) c) = in_tx c) by (rewrite (in_tx_snoc _ (c_txs c) (new_txn t)); [rewrite (in_tx_nil c EO HN); exact NU|reflexivity|reflexivity]).
        rewrite IT. apply core_null; [exact C|exact NU].
      * cbn. right. rewrite HN. intros u [].
    + apply is_null_false in NU. destruct AL as [AL|[NEG OW]]; [contradiction|]. destruct (join_these e (new_txn t) (c_fixed c) c) as [[c1 t1] code] eqn:JT. pose proof (join_these_grow _ _ _ _ _ _ _ JT) as [(evs&G1) T1].
      cbn [fst]. subst c1 t1. apply (push_xinv fixed c _ (involve (c_fixed c) (new_txn t))); try reflexivity; try assumption; [|right; rewrite HN; intros u []].
      rewrite (in_tx_nil c EO HN), HN in C. rewrite HN. apply (core_push fixed [] (A c) (c_next c)); cbn; try assumption; try lia; try tauto.
      * pose proof (k_next _ _ _ _ _ C). lia.
      * rewrite F. apply (involve_new_aux fixed []). exact ND.
      * intros _. unfold owned. cbn. apply Z.eqb_neq. exact OW.
      * intros r Ir. unfold join_these in JT. rewrite F in JT. destruct fixed as [|r0 fx]; [destruct Ir|]. destruct (join_each e _ _ _ _ _) as [c2 k2] eqn:JE. injection JT as J1 J2. subst k2.
        apply (join_each_moves e _ _ G _ ND) in JE. destruct JE as (_&_&JE). specialize (JE r Ir). rewrite J1 in JE. apply JE. rewrite A_other by discriminate.
        pose proof (k_neg _ _ _ _ _ C r (x_id t) ltac:(lia)) as NS. destruct (k_free _ _ _ _ _ C (x_id t) r (or_introl (fun x => x)) Ir) as [Y|[Y|Y]]; [left; exact Y|right; exact Y|contradiction].
      * intros r y E. unfold join_these in JT. rewrite F in JT. destruct fixed as [|r0 fx]; [injection JT as J1 _; change (A (grow evs c) r y = A c r y); rewrite <- J1; reflexivity|]. destruct (join_each e _ _ _ _ _) as [c2 k2] eqn:JE. injection JT as J1 J2. subst k2.
        apply (join_each_moves e _ _ G _ ND) in JE. destruct JE as (_&JE&_). specialize (JE r y E). rewrite J1 in JE. rewrite A_other in JE by discriminate. exact JE.
  - cbn in AL. apply held_nil in AL. unfold start. rewrite F. pose proof (k_next _ _ _ _ _ C) as L1.
    destruct (start_these e StartNew _ fixed _) as [[c1 t1] code] eqn:ST. pose proof (start_these_grow _ _ _ _ _ _ _ _ ST) as [(evs&G1&_) _].
    assert (IV : t_inv (involve fixed (new_txn (mk_tid (c_next c) me))) = fixed) by (apply involve_new; [exact ND|reflexivity]).
    apply (start_these_moves e StartNew _ _ _ _ _ fixed G ND IV) in ST. destruct ST as (->&->&U). change (tx_eqb tx_ok tx_ok) with true; cbn [fst]. subst c1.
    apply (push_xinv fixed c _ (involve fixed (new_txn (mk_tid (c_next c) me)))); try reflexivity; try assumption; [cbn; lia| |right; rewrite AL; intros u []].
    rewrite (in_tx_nil c EO AL) in C. apply (core_push fixed _ (A c) (c_next c)); cbn; try lia; try assumption.
    + exact (fresh_out _ _ _ _ _ C).
    + unfold foreign, owned; cbn. rewrite andb_false_r. discriminate.
    + intros r Ir. pose proof (upd_in _ _ _ _ _ r U Ir) as Y. change (A (grow evs (w_next (c_next c + 1) c)) r (c_next c) = legal (A c r (c_next c)) StartNew) in Y. change (A (grow evs (w_next (c_next c + 1) c)) r (c_next c) = Associated). rewrite Y. rewrite (k_fresh _ _ _ _ _ C r (c_next c)) by lia. reflexivity.
    + intros r y Y. specialize (U r y). cbn [involve new_txn w_inv t_id x_id] in U. rewrite Y in U. exact U.
  - destruct AL as [HN OW]. apply held_nil in HN. pose proof (k_next _ _ _ _ _ C) as L1. unfold branch. destruct (is_null t) eqn:NU.
    + apply is_null_spec in NU. constructor; [exact F|exact D|exact EO|..].
      * cbn [fst w_txs c_txs c_next c_log]. assert (IT : in_tx (w_txs (c_txs c ++ [new_txn t]) c) = in_tx c) by (rewrite (in_tx_snoc _ (c_txs c) (new_txn t)); [rewrite (in_tx_nil c EO HN); exact NU|reflexivity|reflexivity]).
        rewrite IT. apply core_null; [exact C|exact NU].
      * cbn. right. rewrite HN. intros u [].
    + rewrite F. set (c0 := match fixed with [] => _ | _ => _ end). assert (G0 : exists ev0, c0 = grow ev0 (w_next (c_next c + 1) c)) by (unfold c0; destruct fixed; [exists []; rewrite grow_nil; reflexivity|eexists; reflexivity]).
      assert (A0 : forall r y, A c0 r y = A c r y) by (intros r y; unfold c0; destruct fixed; [reflexivity|rewrite A_other by discriminate; reflexivity]).
      destruct G0 as (ev0&G0). destruct (start_these e StartNew _ fixed c0) as [[c1 t1] code] eqn:ST. pose proof (start_these_grow _ _ _ _ _ _ _ _ ST) as [(evs&G1&_) _].
      assert (IV : t_inv (involve fixed (new_txn (mk_tid (c_next c) (x_own t)))) = fixed) by (apply involve_new; [exact ND|reflexivity]).
      apply (start_these_moves e StartNew _ _ _ _ _ fixed G ND IV) in ST. destruct ST as (->&->&U). change (tx_eqb tx_ok tx_ok) with true; cbn [fst]. rewrite G0 in G1. subst c1.
      apply (push_xinv fixed c _ (involve fixed (new_txn (mk_tid (c_next c) (x_own t))))); try reflexivity; try assumption; [cbn; lia| |right; rewrite HN; intros u []].
      rewrite (in_tx_nil c EO HN) in C. apply (core_push fixed _ (A c) (c_next c)); cbn; try lia; try assumption.
      * exact (fresh_out _ _ _ _ _ C).
      * intros _. rewrite HN. reflexivity.
      * intros r Ir. pose proof (upd_in _ _ _ _ _ r U Ir) as Y. change (A (grow evs (grow ev0 (w_next (c_next c + 1) c))) r (c_next c) = legal (A c0 r (c_next c)) StartNew) in Y. change (A (grow evs (grow ev0 (w_next (c_next c + 1) c))) r (c_next c) = Associated). rewrite Y, A0. rewrite (k_fresh _ _ _ _ _ C r (c_next c)) by lia. reflexivity.
      * intros r y Y. specialize (U r y). cbn [involve new_txn w_inv t_id x_id] in U. rewrite Y, A0 in U. exact U.
  - destruct (finalize e do_commit c) as [c' s] eqn:E. exact (finalize_xinv e do_commit fixed c c' s G ND X E).
Qed.

Lemma core_init fixed : core fixed [] (fun _ _ => NotAssociated) 1 0.
Proof. constructor; try (intros; discriminate); auto; try lia; try constructor; try (intros; contradiction). Qed.

Lemma run_xinv e fixed is : rms_agree e -> NoDup fixed -> forall c, XInv fixed c -> all_in_order e is c -> XInv fixed (fst (run e is c)).
Proof.
  intros G ND. induction is as [|i is IH]; intros c X AL; [exact X|]. destruct AL as [A1 AL]. pose proof (step_xinv e fixed c i G ND X A1) as X1. cbn [run]. destruct (step e i c) as [c1 r]. cbn [fst] in *.
  specialize (IH c1 X1 AL). destruct (run e is c1) as [c2 h]. exact IH.
Qed.

Lemma xa_legal e fixed m is : rms_agree e -> NoDup fixed -> all_in_order e is (w_ctl m (init [] fixed)) ->
  forall r x, let c := fst (run e is (w_ctl m (init [] fixed))) in let s := assoc_of r x (c_log c) in
  s <> Illegal /\ (s = Associated -> x = in_tx c /\ x <> 0) /\ (s = AssociationSuspended -> In x (held c) /\ x <> 0 /\ x <> in_tx c) /\
  (In r fixed -> x <> 0 -> In x (held c) -> s = if x =? in_tx c then Associated else AssociationSuspended).
Proof.
  intros G ND AL r x. assert (X0 : XInv fixed (w_ctl m (init [] fixed))).
  { constructor; [reflexivity|reflexivity|split; reflexivity| |right; intros u []]. change (in_tx (w_ctl m (init [] fixed))) with 0. apply core_init. }
  pose proof (run_xinv e fixed is G ND _ X0 AL) as [F D EO C Q]. cbn zeta. set (c := fst (run e is (w_ctl m (init [] fixed)))) in *. change (assoc_of r x (c_log c)) with (A c r x).
  destruct (in_dec Z.eq_dec r fixed) as [Ir|Or]; [|rewrite (k_out _ _ _ _ _ C r x Or); repeat split; congruence].
  destruct (Z.eq_dec x 0) as [->|N].
  - destruct (k_free _ _ _ _ _ C 0 r (or_intror eq_refl) Ir) as [-> |[-> | ->]]; repeat split; congruence.
  - destruct (in_dec Z.eq_dec x (held c)) as [I|O].
    + pose proof I as I'. unfold held in I'. apply in_map_iff in I'. destruct I' as (t&E&It). subst x. rewrite (k_held _ _ _ _ _ C t r It N Ir). destruct (idt t =? in_tx c) eqn:K.
      * apply Z.eqb_eq in K. repeat split; try congruence.
      * apply Z.eqb_neq in K. repeat split; congruence.
    + destruct (k_free _ _ _ _ _ C x r (or_introl O) Ir) as [-> |[-> | ->]]; repeat split; try congruence; contradiction.
Qed.
