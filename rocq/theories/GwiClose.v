(* When a connection is closed. *)
From Coq Require Import ZArith List Bool Lia.
From Verif Require Import GwiModel GwiSpec GwiProofs GwiInv GwiFwd GwiOnce GwiKeep GwiPass GwiReply GwiThere GwiCache.
Import ListNotations.
Local Open Scope Z_scope.

Lemma step_closes s i s' ev c : NoDup (map c_sock (s_conns s)) -> stepd s i s' ev -> In (Destroyed c) ev -> exists L s1, closes i s L /\ closing L s s1 ev /\ exists n, In n L /\ c_ipc n = c.
Proof.
  intros ND E H.
  assert (NP: forall f m, ~ In (Destroyed c) (to_partner f m s)) by (intros f m; unfold to_partner; destruct (by_sock f s); cbn; intros X; [destruct X as [X|[]]; discriminate|tauto]).
  destruct E as [f c0 sf|n on q s' ev J E|n on r1 k1 t1 d1 s' ev J E|i Q|n on k1 d1 f q o name p J F K|n on k1 f q o name p J F K|n on k1 d1 J|n on J DC|n ok k1 a f q o fnd J F A|n ok k1 name p f q o fnd ev J F EV
    |n ok k1 p f q fnd J F|n ok k1 p f q fnd J F|n ok k1 t1 f q o fnd ev J F EV|n ok k1 t1 f q w J F|n ok k1 t1 f q w p J F|n k1 code d1 m q o fnd J J2 F K|n r1 k1 t1 code m k0 o J J2 F|n m w J F X|n k1 d1 J
    |f q|g|i L s' ev CL C D|c0 k1 d1 L s1 ev CL C D]; try (exfalso; cbn in H; (destruct H as [H|[]]; discriminate) || tauto).
  - exfalso. destruct (request_done _ _ _ _ _ _ ND J E) as (q' & w & l & e & T & _ & ->). destruct H as [H|H]; [unfold asks_lookup in H; destruct (q_kind q); try discriminate; destruct on; discriminate|]. destruct T; cbn in H; try tauto. destruct H as [H|[]]; discriminate.
  - exfalso. unfold resource_step in E. destruct (cached (fst t1) (s_cache s)) as [e|] eqn:C; injection E as <- <-; [|now apply NP in H]. destruct H as [H|[]]. discriminate.
  - now apply NP in H.
  - exfalso. subst ev. unfold service_request in H. destruct o as [o|]; [destruct (trid_eqb (Some o) (q_trid q))|]; cbn in H; (destruct H as [H|[]]; discriminate) || tauto.
  - exfalso. unfold queue_request in H. destruct p; [|now apply NP in H]. destruct H as [H|[]]; discriminate.
  - exfalso. subst ev. unfold service_request in H. destruct fnd; cbn in H; (destruct H as [H|[]]; discriminate) || tauto.
  - exfalso. unfold queue_request in H. destruct p; [|now apply NP in H]. destruct H as [H|[]]; discriminate.
  - exfalso. unfold undelivered in H. destruct (q_kind q); now apply NP in H.
  - exists L, s'. split; auto. split; auto. now apply (cl_ev _ _ _ _ C) in H.
  - exists L, s1. split; auto. split; auto. now apply (cl_ev _ _ _ _ C) in H.
Qed.
Lemma soft_of s h n : reach s h -> In n (s_conns s) -> (c_soft n = true <-> soft (c_ipc n) h).
Proof.
  intros R I. pose proof (i_conn _ _ (reach_inv s h R) n I) as C. split; [intro X; rewrite X in C; exists (c_sock n); auto|]. intros [f J]. destruct (connected_once h _ _ _ _ _ (ex_intro _ s R) C J). auto.
Qed.
Lemma existsb_eq f l : existsb (Z.eqb f) l = true -> In f l.
Proof. intro H. apply existsb_exists in H as [x [A B]]. apply Z.eqb_eq in B. now subst. Qed.
Lemma in_existsb f l : In f l -> existsb (Z.eqb f) l = true.
Proof. intro H. apply existsb_exists. exists f. split; auto. apply Z.eqb_refl. Qed.
Lemma closed_cause h i ev c : happens (h ++ [(i, ev)]) -> In (Destroyed c) ev -> open c h /\ closed_by h i c.
Proof.
  intros H J. apply happens_snoc in H as (s & s' & R & P & E & R'). destruct (stepd_of _ _ _ _ _ R P E) as [IV SD]. destruct (step_closes _ _ _ _ _ (i_sock _ _ IV) SD J) as (L & s1 & CL & C & n & NL & CN).
  pose proof (cl_in _ _ _ _ C n NL) as I. split; [apply IV; rewrite <- CN; now apply in_map|]. pose proof (soft_of s h n R I) as SO. rewrite CN in SO.
  destruct i as [f0 c0 sf|c0 on m|c0 ok m|f0 q|c0|g|c0 ok|broken|]; cbn in CL |- *; try tauto.
  - destruct m; try tauto. destruct CL as (m & -> & <- & _). destruct NL as [<- | []]. auto.
  - destruct ok; [tauto|]. destruct CL as (m' & -> & <- & _). destruct NL as [<- | []]. auto.
  - destruct CL as (m & -> & <-). destruct NL as [<- | []]. auto.
  - destruct (CL n NL) as [A B]. split; [congruence|]. intro X. apply B, SO, X.
  - intro X. rewrite <- CN. apply (CL n NL). apply SO, X.
  - assert (X: hit L (c_sock n) = true) by (apply hit_in; eauto). rewrite CL in X. apply existsb_eq in X. apply filter_In in X as [X _]. apply (i_leaving _ _ IV) in X as (c1 & SK & LV). assert (c1 = c) by (apply (sock_of_unique s c1 c (c_sock n)); auto; [apply IV|exists n; auto]). now subst c1.
Qed.

(* ---- with the consent of the remote: when there's nothing in progress ---- *)
Lemma ended_dec q h : ended q h \/ ~ ended q h.
Proof.
  destruct (existsb (ends (q_kind q) (q_corr q)) (inputs h)) eqn:X; [left; now apply existsb_exists in X|]. right. intros [i [A B]]. apply Bool.not_true_iff_false in X. apply X. apply existsb_exists. eauto.
Qed.
Definition answers_rm (r : resource) (k : corr) (i : input) : bool := match i with Internal _ _ (IResource r' k' _ _) => resource_eqb r' r && (k' =? k) | Internal _ _ (ISend k' true _) => k' =? k | _ => false end.
Lemma rm_dec r k h : rm_answered r k h \/ ~ rm_answered r k h.
Proof.
  destruct (existsb (answers_rm r k) (inputs h)) eqn:X.
  - left. apply existsb_exists in X as [i [A B]]. destruct i as [| |c ok m| | | | | |]; try discriminate. destruct m as [k' a|k' a|k' t'|nk k' code d|k' [] d|r' k' t' code|k' d|d]; try discriminate; cbn in B.
    + apply Z.eqb_eq in B. subst. right. exists d, c, ok. auto.
    + apply andb_true_iff in B as [B1 B2]. apply Z.eqb_eq in B2. apply resource_eqb_eq in B1. subst. left. exists t', code, c, ok. auto.
  - right. apply Bool.not_true_iff_false in X. intros [(t & code & c & ok & J)|(d & c & ok & J)]; apply X; apply existsb_exists; eexists; (split; [exact J|]); cbn; [rewrite Z.eqb_refl; now destruct r|apply Z.eqb_refl].
Qed.
Lemma disconnectable_true f s : disconnectable f s = true -> (forall t, In t (s_tasks s) -> k_sock t <> f) /\ (forall g, ~ in_cache g f s).
Proof.
  unfold disconnectable. intro H. apply andb_true_iff in H as [A B]. apply negb_true_iff in A, B. split.
  - intros t I E. apply Bool.not_true_iff_false in B. apply B. apply existsb_exists. exists t. split; auto. now apply Z.eqb_eq.
  - intros g (e & C & I). apply Bool.not_true_iff_false in A. apply A. unfold associated. apply existsb_exists. exists (g, e). split; [now apply cached_some|]. now apply in_existsb.
Qed.
Lemma disconnectable_intro f s : NoDup (map fst (s_cache s)) -> (forall t, In t (s_tasks s) -> k_sock t <> f) -> (forall g, ~ in_cache g f s) -> disconnectable f s = true.
Proof.
  intros N A B. unfold disconnectable. apply andb_true_iff. split; apply negb_true_iff; apply Bool.not_true_iff_false; intro X.
  - unfold associated in X. apply existsb_exists in X as [[g e] [X1 X2]]. apply existsb_eq in X2. apply (B g). exists e. split; auto. now apply cached_in.
  - apply existsb_exists in X as [t [X1 X2]]. apply Z.eqb_eq in X2. now apply (A t).
Qed.
Lemma agreed_idle s i s' ev c : NoDup (map c_sock (s_conns s)) -> stepd s i s' ev -> In (Destroyed c) ev -> agreed i = true -> exists n, In n (s_conns s) /\ c_ipc n = c /\ disconnectable (c_sock n) s = true.
Proof.
  intros ND SD J A. destruct (step_closes _ _ _ _ _ ND SD J) as (L & s1 & CL & C & n & NL & CN). exists n. split; [apply (cl_in _ _ _ _ C n NL)|]. split; auto.
  destruct i as [f0 c0 sf|c0 on m|c0 ok m|f0 q|c0|g|c0 ok|broken|]; cbn in CL, A; try discriminate.
  - destruct m; try discriminate. destruct CL as (m & -> & <- & D). now destruct NL as [<- | []].
  - assert (X: hit L (c_sock n) = true) by (apply hit_in; eauto). rewrite CL in X. apply existsb_eq in X. now apply filter_In in X as [_ X].
Qed.
Lemma agreed_close h i ev c : happens (h ++ [(i, ev)]) -> unique h -> honest h -> In (Destroyed c) ev -> agreed i = true ->
  (forall q, asked c q h -> is_service q = true -> ended q h) /\ (forall r k t, asked_rm c r k t h -> rm_answered r k h) /\ (forall g, ~ uses g c h).
Proof.
  intros H U HO J A. apply happens_snoc in H as (s & s' & R & P & E & R'). destruct (stepd_of _ _ _ _ _ R P E) as [IV SD]. destruct (agreed_idle _ _ _ _ _ (i_sock _ _ IV) SD J A) as (n & I & CN & D). apply disconnectable_true in D as [D1 D2].
  split; [|split].
  - intros q AQ SV. destruct (ended_dec q h) as [X|X]; auto. exfalso. destruct (reach_there s h R U c q n AQ SV X I CN) as (q1 & fnd & T & _). now apply D1 in T.
  - intros r k t AQ. destruct (rm_dec r k h) as [X|X]; auto. exfalso. destruct (reach_there_rm s h R U c r k t n AQ X I CN) as (o & T). now apply D1 in T.
  - intros g (k & BK & p & q' & FW & QC). destruct (reach_book s h R U HO g c k n BK I CN) as [BF _]. apply (D2 g). apply BF. apply (forwards_in _ _ _ _ _ FW QC).
Qed.

(* ---- and when there's nothing left, it's closed ---- *)
Definition begins (c : ipc) (b : body) (i : input) : Prop :=
  match b with
  | Service q _ _ => exists on q0, i = External c on (XRequest q0) /\ is_service q0 = true /\ q_kind q0 = q_kind q /\ q_corr q0 = q_corr q
  | Queue _ _ _ => True
  | Rm r k _ => exists on t d, i = External c on (XResource r k t d)
  end.
Definition stops (b : body) (i : input) : bool :=
  match b with
  | Service q _ _ => ends (q_kind q) (q_corr q) i
  | Queue _ _ _ => false
  | Rm r k _ => match i with Internal _ _ (IResource r' k' _ _) => resource_eqb r' r && (k' =? k) | _ => false end
  end.
Definition waits (c : ipc) (b : body) (h : history) : Prop :=
  match b with Queue _ _ _ => True | _ => exists h1 i e h2, h = h1 ++ (i, e) :: h2 /\ begins c b i /\ forall j, In j (inputs h2) -> stops b j = false end.
Lemma waits_more c b h i ev : waits c b h -> stops b i = false -> waits c b (h ++ [(i, ev)]).
Proof.
  intros W ST. assert (X: forall (P : input -> Prop) , (exists h1 i e h2, h = h1 ++ (i, e) :: h2 /\ P i /\ forall j, In j (inputs h2) -> stops b j = false) -> exists h1 i0 e h2, h ++ [(i, ev)] = h1 ++ (i0, e) :: h2 /\ P i0 /\ forall j, In j (inputs h2) -> stops b j = false).
  { intros Q (h1 & i0 & e & h2 & -> & A & B). exists h1, i0, e, (h2 ++ [(i, ev)]). rewrite <- app_assoc. split; auto. split; auto. intros j J. rewrite inputs_snoc in J. apply in_app_or in J as [J|[<- | []]]; auto. }
  destruct b; cbn [waits] in *; auto; now apply X.
Qed.
Definition shape (b : body) (b' : body) : Prop :=
  match b, b' with Service q _ _, Service q' _ _ => q_kind q = q_kind q' /\ q_corr q = q_corr q' | Queue _ _ _, Queue _ _ _ => True | Rm r k _, Rm r' k' _ => r = r' /\ k = k' | _, _ => False end.
Lemma waits_shape c b b' h : waits c b h -> shape b b' -> waits c b' h.
Proof.
  destruct b as [q o fnd|q w fnd|r k o], b' as [q' o' fnd'|q' w' fnd'|r' k' o']; cbn; try tauto.
  - intros (h1 & i & e & h2 & A & (on & q0 & B1 & B2 & B3 & B4) & B) [K1 K2]. exists h1, i, e, h2. split; auto. split; [exists on, q0; repeat (split; auto); congruence|]. rewrite <- K1, <- K2. exact B.
  - intros (h1 & i & e & h2 & A & B & C) [<- <-]. exists h1, i, e, h2. auto.
Qed.
Lemma shape_refl b : shape b b.
Proof. destruct b; cbn; auto. Qed.
Lemma stops_touches t i : stops (k_body t) i = true -> touches (t_corr t) i = true.
Proof.
  destruct t as [f [q o fnd|q w fnd|r k o]]; unfold t_corr; cbn; try discriminate.
  - destruct i as [|c on m|c ok m| | | | | |]; cbn; try discriminate.
    + destruct m; cbn; try discriminate. intro H. now apply andb_true_iff in H.
    + destruct m as [k' a|k' a|k' t|nk k' code d|k' [] d|r k' t code|k' d|d]; cbn; try discriminate; auto. destruct nk; try discriminate. intro H. now apply andb_true_iff in H.
  - destruct i as [|c on m|c ok m| | | | | |]; cbn; try discriminate. destruct m as [k' a|k' a|k' t|nk k' code d|k' [] d|r' k' t code|k' d|d]; cbn; try discriminate. intro H. now apply andb_true_iff in H.
Qed.
(* what stops a task takes it away *)
Lemma stop_drops s i s' ev t : step i s = Done s' ev -> possible i s [] \/ (match i with External c _ _ | Internal c _ _ => In c (map c_ipc (s_conns s)) | _ => True end) -> (count (at_corr (t_corr t)) (s_tasks s) <= 1)%nat -> In t (s_tasks s) -> stops (k_body t) i = true -> forall t', In t' (s_tasks s') -> t_corr t' <> t_corr t.
Proof.
  intros E P ONE I ST t' T' EQ. set (k := t_corr t) in *. pose proof (first_unique k s t ONE I eq_refl) as FT. assert (PI: match i with External c _ _ | Internal c _ _ => In c (map c_ipc (s_conns s)) | _ => True end) by (destruct P as [P|P]; [destruct i; exact P || exact Logic.I|exact P]). clear P.
  assert (DROP: In t' (s_tasks (drop_task k s)) -> False) by (intro X; now apply (without_none k _ ONE) in X).
  assert (RD: forall ok f m, reply_and_drop ok k f m s = Done s' ev -> False).
  { intros ok f m X. apply reply_and_drop_done in X as (n & _ & _ & _ & -> & _). auto. }
  destruct t as [f [q o fnd|q w fnd|r k1 o]]; cbn [k_body stops] in ST; try discriminate.
  - change k with (q_corr q) in *. destruct i as [|c on m|c ok m| | | | | |]; cbn in ST; try discriminate; destruct (by_ipc_in _ _ PI) as [n BI]; cbn in E; rewrite BI in E.
    + destruct m as [ |k' d|k'| | | ]; try discriminate ST. apply andb_true_iff in ST as [ST1 ST2]. apply Z.eqb_eq in ST2. subst k'. apply kind_eqb_eq in ST1. cbn in E. rewrite FT, ST1 in E. destruct fnd as [d|]; [|discriminate]. injection E as <- _. auto.
    + destruct m as [k' a|k' a|k' t|nk k' code d|k' [] d|r k' t code|k' d|d]; try discriminate ST.
      * destruct nk; try discriminate ST. apply andb_true_iff in ST as [ST1 ST2]. apply Z.eqb_eq in ST2. subst k'. apply kind_eqb_eq in ST1. cbn in E. unfold call_reply in E. rewrite FT, ST1 in E. now apply RD in E.
      * apply Z.eqb_eq in ST. subst k'. cbn in E. apply bind_done in E as (s1 & e1 & e2 & _ & D & _). injection D as <- _. cbn in T'. apply filter_In in T' as [_ T']. rewrite EQ, Z.eqb_refl in T'. discriminate.
  - change k with k1 in *. destruct i as [|c on m|c ok m| | | | | |]; cbn in ST; try discriminate; destruct (by_ipc_in _ _ PI) as [n BI]; cbn in E; rewrite BI in E.
    destruct m as [k' a|k' a|k' t|nk k' code d|k' [] d|r' k' t code|k' d|d]; try discriminate ST. apply andb_true_iff in ST as [ST1 ST2]. apply Z.eqb_eq in ST2. subst k'. apply resource_eqb_eq in ST1. subst r'. cbn in E. unfold resource_reply in E. rewrite FT in E. replace (resource_eqb r r) with true in E by (destruct r; auto). now apply RD in E.
Qed.
(* where the tasks come from *)
Lemma step_from s i s' ev t : NoDup (map c_sock (s_conns s)) -> stepd s i s' ev -> In t (s_tasks s') ->
  (exists t0, In t0 (s_tasks s) /\ k_sock t0 = k_sock t /\ t_corr t0 = t_corr t /\ shape (k_body t0) (k_body t)) \/ (exists n on q q' w l e, i = External (c_ipc n) on (XRequest q) /\ In n (s_conns s) /\ transacts s (c_sock n) q q' w l e /\ t = Task (c_sock n) (body_of q q' w)) \/
  (exists n on r k t0 d o, i = External (c_ipc n) on (XResource r k t0 d) /\ In n (s_conns s) /\ t = Task (c_sock n) (Rm r k o)).
Proof.
  intros ND E. assert (SAME: In t (s_tasks s) -> exists t0, In t0 (s_tasks s) /\ k_sock t0 = k_sock t /\ t_corr t0 = t_corr t /\ shape (k_body t0) (k_body t)) by (intro I; exists t; pose proof (shape_refl (k_body t)); auto).
  assert (PUT: forall k b t0 s0, s_tasks s0 = s_tasks s -> first_task k s = Some t0 -> shape (k_body t0) b -> (forall f, t_corr (Task f b) = t_corr t0) -> In t (s_tasks (put_task k b s0)) -> exists t0, In t0 (s_tasks s) /\ k_sock t0 = k_sock t /\ t_corr t0 = t_corr t /\ shape (k_body t0) (k_body t)).
  { intros k b t0 s0 ES F SH TC I. cbn in I. rewrite ES in I. apply (in_put _ _ s _ _ F) in I as [I | ->]; auto. exists t0. apply first_some in F as [F1 F2]. rewrite TC. auto. }
  destruct E as [f c soft|n on q s' ev J E|n on r k t1 d s' ev J E|i Q|n on k d f q o name p J F K|n on k f q o name p J F K|n on k d J|n on J DC|n ok k a f q o fnd J F A|n ok k name p f q o fnd ev J F EV
    |n ok k p f q fnd J F|n ok k p f q fnd J F|n ok k t1 f q o fnd ev J F EV|n ok k t1 f q w J F|n ok k t1 f q w p J F|n k code d m q o fnd J J2 F K|n r k t1 code m k0 o J J2 F|n m w J F X|n k d J
    |f q|g|i L s' ev CL C D|c k d L s1 ev CL C D]; auto.
  - destruct (request_done _ _ _ _ _ _ ND J E) as (q' & w & l & e & T & -> & ->). cbn. intro I. apply in_app_or in I as [I|[<- | []]]; [left; auto|]. right. left. exists n, on, q, q', w, l, e. auto.
  - unfold resource_step in E. intro I. assert (X: In t (s_tasks s) \/ exists o, t = Task (c_sock n) (Rm r k o)) by (destruct (cached _ _); injection E as <- <-; cbn in I; apply in_app_or in I as [I|[<- | []]]; eauto). destruct X as [X|[o X]]; [left; auto|]. right. right. exists n, on, r, k, t1, d, o. auto.
  - intro I. apply in_drop in I. left; auto.
  - intro I. left. apply (PUT k (Service q o (Some (name, p))) (Task f (Service q o fnd)) s eq_refl F); auto. cbn; auto.
  - intro I. left. apply (PUT k (Queue q true (Some p)) (Task f (Queue q true fnd)) s eq_refl F); auto. exact Logic.I.
  - intro I. apply in_drop in I. left; auto.
  - intro I. left. apply (PUT k (Service (with_trid (Some t1) q) o fnd) (Task f (Service q o fnd)) (cache_add t1 f s) (cache_add_tasks t1 f s) F); auto. cbn; auto.
  - intro I. left. apply (PUT k (Queue (with_trid (Some t1) q) false None) (Task f (Queue q w None)) (cache_add t1 f s) (cache_add_tasks t1 f s) F); auto. exact Logic.I.
  - intro I. apply in_drop in I. rewrite cache_add_tasks in I. left; auto.
  - intro I. apply in_drop in I. left; auto.
  - intro I. apply in_drop in I. left; auto.
  - intro I. apply in_remove in I. left; auto.
  - intro I. rewrite (cl_tasks _ _ _ _ C) in I. apply filter_In in I as [I _]. left; auto.
  - intro I. apply in_remove in I. rewrite (cl_tasks _ _ _ _ C) in I. apply filter_In in I as [I _]. left; auto.
Qed.
Lemma sock_before s h i s' ev c f t : reach s h -> possible i s h -> step i s = Done s' ev -> sock_of c f s' -> In t (s_tasks s) -> k_sock t = f -> sock_of c f s.
Proof.
  intros R P E (n & A & B & C) I TF. pose proof (reach_inv s h R) as IV. destruct (i_task _ _ IV t I) as (c1 & (n1 & N1 & N2 & N3) & _). rewrite TF in N2.
  assert (R': reach s' (h ++ [(i, ev)])) by (econstructor; eauto). assert (O: open c (h ++ [(i, ev)])) by (apply (reach_inv _ _ R'); rewrite <- C; now apply in_map).
  destruct i as [f0 c0 sf| | | | | | | |]; try (exists n; split; auto; apply (conn_before s h _ ev s' n R P E A); rewrite C; destruct O as [(f1 & sf & O1) _]; rewrite inputs_snoc in O1; apply in_app_or in O1 as [O1|[O1|[]]]; [exists f1, sf; auto|discriminate]).
  cbn in E. injection E as <- _. cbn in A. apply in_app_or in A as [A|[<- | []]]; [exists n; auto|]. exfalso. destruct P as [P _]. apply (P n1 N1). cbn in B. congruence.
Qed.
Lemma reach_waits s h : reach s h -> unique h -> forall t c, In t (s_tasks s) -> sock_of c (k_sock t) s -> waits c (k_body t) h.
Proof.
  induction 1 as [|s h i s' ev R IH P E]; intros U t c T SO; [destruct T|]. pose proof (unique_snoc _ _ _ U) as U0. destruct (stepd_of _ _ _ _ _ R P E) as [IV SD].
  destruct (step_from s i s' ev t (i_sock _ _ IV) SD T) as [(t0 & T0 & TS & TC & SH)|[(n & on & q & q' & w & l & e & -> & I & TR & ->)|(n & on & r & k & t0 & d & o & -> & I & ->)]].
  - assert (SO0: sock_of c (k_sock t0) s) by (rewrite TS; apply (sock_before s h i s' ev c _ t0 R P E); auto; congruence). pose proof (IH U0 t0 c T0 SO0) as W. apply (waits_shape c (k_body t0)); auto. apply waits_more; auto.
    destruct (stops (k_body t0) i) eqn:ST; auto. exfalso. refine (stop_drops s i s' ev t0 E _ (tasks_one s h _ R U0) T0 ST t T (eq_sym TC)). right. destruct i; auto.
  - assert (c = c_ipc n). { destruct SO as (n' & A & B & <-). assert (n' = n); [|congruence]. cbn in B. destruct (step_asked _ _ _ _ (i_sock _ _ IV) SD) as [[NR _]|(m & on' & q1 & q1' & w1 & l1 & e1 & I1 & EQ & T1 & -> & ->)]; [destruct NR|]. cbn in A. apply (same_sock s); auto. apply IV. }
    subst c. unfold body_of. cbn. destruct (is_service q) eqn:SV; [|exact Logic.I]. cbn. exists h, (External (c_ipc n) on (XRequest q)), ev, []. split; auto. split; [|intros j []]. exists on, q. destruct TR; auto.
  - assert (c = c_ipc n). { destruct SO as (n' & A & B & <-). assert (n' = n); [|congruence]. cbn in B. apply (same_sock s); auto; [apply IV|]. cbn in E, P. destruct (by_ipc_in _ _ P) as [m BI]. rewrite BI in E. cbn in E. unfold resource_step in E. destruct (cached _ _); injection E as <- _; exact A. }
    subst c. cbn. exists h, (External (c_ipc n) on (XResource r k t0 d)), ev, []. split; auto. split; [|intros j []]. eauto.
Qed.
