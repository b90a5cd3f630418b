(* What happens to a conversation, seen from outside of the processes *)
From Coq Require Import ZArith List Bool Lia.
From Verif Require Import ConvModel ConvSpec ConvProofs ConvInv.
Import ListNotations.
Local Open Scope Z_scope.

Lemma prefix_nil {A} (l : list A) : prefix [] l.
Proof. exists l. reflexivity. Qed.
Lemma prefix_app {A} (l r s : list A) : prefix l r -> prefix l (r ++ s).
Proof. intros (t & ->). exists (t ++ s). rewrite app_assoc. reflexivity. Qed.
Lemma dt_nil_none l : dt l = [] -> forall b, In b l -> match b with Request _ _ _ | Data _ _ => False | _ => True end.
Proof. intros E b I. apply in_split in I. destruct I as (l1 & l2 & ->). rewrite dt_app in E. apply app_eq_nil in E. destruct E as [_ E]. destruct b; auto; discriminate E. Qed.
Lemma dt_none l : (forall b, In b l -> match b with Request _ _ _ | Data _ _ => False | _ => True end) -> dt l = [].
Proof. induction l as [|x l IH]; intros H; [reflexivity|]. pose proof (H x (or_introl eq_refl)) as HX. change (x :: l) with ([x] ++ l). rewrite dt_app, IH by (intros b I; apply H; right; exact I). destruct x; try contradiction; reflexivity. Qed.
(* of a tail *)
Lemma tail_none d l : tail_ok d l -> tail_ok None l.
Proof. intros T l1 x l2 E. destruct (T l1 x l2 E) as [-> _]. split; [reflexivity|discriminate]. Qed.
Lemma tail_sub d l1 x l2 : tail_ok d (l1 ++ x :: l2) -> tail_ok d (l1 ++ l2).
Proof.
  intros T a y b E. rewrite dt_app in E. destruct (dt [x]) as [|z zs] eqn:X.
  - apply (T a y b). rewrite dt_app. change (x :: l2) with ([x] ++ l2). rewrite dt_app, X. exact E.
  - assert (Z1 : zs = []) by (destruct x; cbn in X; congruence). subst zs.
    assert (F : dt (l1 ++ x :: l2) = dt l1 ++ z :: dt l2) by (rewrite dt_app; change (x :: l2) with ([x] ++ l2); rewrite dt_app, X; reflexivity).
    assert (C : (exists b', dt l1 = a ++ (true, y) :: b') \/ exists a', dt l2 = a' ++ (true, y) :: b).
    { revert E. generalize (dt l1) (dt l2). intros u w0. clear. revert u. induction a as [|q a IH]; intros u E; destruct u as [|k u]; cbn in *.
      - right. exists []. exact E.
      - left. injection E as -> E. exists u. reflexivity.
      - right. exists (q :: a). exact E.
      - injection E as -> E. destruct (IH u E) as [(b' & ->)|(a' & ->)]; [left; exists b'; reflexivity|right; exists a'; reflexivity]. }
    destruct C as [(b' & C)|(a' & C)].
    + rewrite C, <- app_assoc in F. cbn in F. destruct (T _ _ _ F) as [E1 _]. destruct b'; discriminate.
    + rewrite C in F. destruct (T (dt l1 ++ z :: a') y b) as [E1 E2]; [rewrite F, <- app_assoc; reflexivity|]. auto.
Qed.
Lemma active_sub d l1 x l2 : active d (l1 ++ l2) -> active d (l1 ++ x :: l2).
Proof.
  intros [A|A]; [left; exact A|right]. intros E. apply A. rewrite dt_app in *. apply app_eq_nil in E. destruct E as [E1 E2]. rewrite E1. change (x :: l2) with ([x] ++ l2) in E2. rewrite dt_app in E2. apply app_eq_nil in E2. destruct E2 as [_ ->]. reflexivity.
Qed.
Lemma active_none d l : active None l -> active d l.
Proof. intros [A|A]; [discriminate|right; exact A]. Qed.
Lemma active_quiet d l b : dt [b] = [] -> active d (l ++ [b]) -> active d l.
Proof. intros B [A|A]; [left; exact A|right]. rewrite dt_app, B, app_nil_r in A. exact A. Qed.
Lemma tail_quiet d l b : dt [b] = [] -> tail_ok d l -> tail_ok d (l ++ [b]).
Proof. intros B T l1 x l2 E. rewrite dt_app, B, app_nil_r in E. exact (T l1 x l2 E). Qed.

(* one leaves *)
Lemma close_a a b P Q sp gp sq gq : shape a b P Q sp gp sq gq -> shape None b P Q sp gp sq gq.
Proof. intros [d1 p1 d2 p2 o ta tb rq rt di]. constructor; try assumption; [congruence|intros [A B]; apply o; split; [exact (active_none a P A)|exact B]|exact (tail_none _ _ ta)|reflexivity]. Qed.
Lemma close_b a b P Q sp gp sq gq : shape a b P Q sp gp sq gq -> shape a None P Q sp gp sq gq.
Proof.
  intros [d1 p1 d2 p2 o ta tb rq rt di]. constructor; try assumption.
  - intros [N|R]; [congruence|]. apply d1. right. exact R.
  - intros [A B]. apply o. split; [exact A|exact (active_none b Q B)].
  - exact (tail_none _ _ tb).
  - intros l1 x l2 E R. destruct (rq l1 x l2 E R) as (_ & X). split; [reflexivity|exact X].
  - intros l1 x l2 E R. destruct (rt l1 x l2 E R) as (_ & X). split; [reflexivity|exact X].
Qed.
(* and a message to it is dropped *)
Lemma split3 {A} (l1 l2 a b : list A) (x y : A) : l1 ++ l2 = a ++ y :: b -> (exists b', l1 = a ++ y :: b' /\ b = b' ++ l2) \/ exists a', l2 = a' ++ y :: b /\ a = l1 ++ a'.
Proof.
  revert l1. induction a as [|q a IH]; intros l1 E; destruct l1 as [|k l1]; cbn in *.
  - right. exists []. auto.
  - injection E as -> E. left. exists l1. auto.
  - right. exists (q :: a). auto.
  - injection E as -> E. destruct (IH l1 E) as [(b' & -> & ->)|(a' & -> & ->)]; [left; exists b'; auto|right; exists a'; auto].
Qed.
Lemma drop_q b P l1 x l2 sp gp sq gq : shape None b P (l1 ++ x :: l2) sp gp sq gq -> shape None b P (l1 ++ l2) sp gp sq gq.
Proof.
  intros [d1 p1 d2 p2 o ta tb rq rt di]. constructor; try assumption; [congruence|..].
  - intros [A B]. apply o. split; [exact A|exact (active_sub b l1 x l2 B)].
  - exact (tail_sub _ _ _ _ tb).
  - intros m1 y m2 E R. destruct (rq m1 y m2 E R) as (A & B & C & D). destruct l1; discriminate C.
  - intros m1 y m2 E R. apply (split3 _ _ _ _ x) in E. destruct E as [(b' & -> & ->)|(a' & -> & ->)].
    + destruct (rt m1 y (b' ++ x :: l2)) as [A B]; [rewrite <- app_assoc; reflexivity|exact R|]. destruct b'; discriminate B.
    + destruct (rt (l1 ++ x :: a') y m2) as [A B]; [rewrite <- app_assoc; reflexivity|exact R|]. auto.
Qed.
Lemma drop_p a l1 x l2 Q sp gp sq gq : (forall y, In y (l1 ++ x :: l2) -> is_request y = false) -> shape a None (l1 ++ x :: l2) Q sp gp sq gq -> shape a None (l1 ++ l2) Q sp gp sq gq.
Proof.
  intros NR [d1 p1 d2 p2 o ta tb rq rt di]. assert (NR' : forall y, In y (l1 ++ l2) -> is_request y = false) by (intros y I; apply NR; apply in_app_iff in I; apply in_app_iff; destruct I as [I|I]; [left; exact I|right; right; exact I]). constructor; try assumption.
  - intros [N|(y & I & R)]; [congruence|]. rewrite (NR' y I) in R. discriminate.
  - intros [A B]. apply o. split; [exact (active_sub a l1 x l2 A)|exact B].
  - exact (tail_sub _ _ _ _ ta).
  - intros m1 y m2 E R. rewrite (NR' y) in R; [discriminate|]. rewrite E. apply in_app_iff. right. left. reflexivity.
  - intros I. apply di. apply in_app_iff in I. apply in_app_iff. destruct I as [I|I]; [left; exact I|right; right; exact I].
Qed.
Lemma shape_disc b P Q sp gp sq gq : shape None b P Q sp gp sq gq -> shape None b (P ++ [Disconnect]) Q sp gp sq gq.
Proof.
  intros [d1 p1 d2 p2 o ta tb rq rt di]. constructor; try assumption.
  - intros H. rewrite dt_app. cbn [dt flat_map]. rewrite app_nil_r. apply d1. destruct H as [N|(y & I & R)]; [left; exact N|right]. exists y. split; [|exact R]. apply in_app_iff in I. destruct I as [I|[<-|[]]]; [exact I|discriminate R].
  - intros [A B]. apply o. split; [|exact B]. apply (active_quiet _ _ Disconnect); [reflexivity|exact A].
  - apply tail_quiet; [reflexivity|exact ta].
  - intros l1 x l2 E R. apply (split3 _ _ _ _ x) in E. destruct E as [(b' & -> & ->)|(a' & E & ->)].
    + destruct (rq l1 x b' eq_refl R) as (A & B & C & D & F). split; [exact A|]. split; [exact B|]. split; [exact C|]. split; [|exact F]. intros y I. apply in_app_iff in I. destruct I as [I|[<-|[]]]; [exact (D y I)|reflexivity].
    + destruct a' as [|z a']; cbn in E; [injection E as <- _; discriminate R|]. injection E as _ E. destruct a'; discriminate E.
  - reflexivity.
Qed.
(* Connected is taken *)
Lemma conn_q a b P l1 l2 sp gp sq gq : shape a b P (l1 ++ Connected :: l2) sp gp sq gq -> shape a b P (l1 ++ l2) sp gp sq gq.
Proof.
  intros [d1 p1 d2 p2 o ta tb rq rt di]. constructor; try assumption.
  - intros N. rewrite <- (d2 N), !dt_app. reflexivity.
  - intros [A B]. apply o. split; [exact A|exact (active_sub b l1 Connected l2 B)].
  - exact (tail_sub _ _ _ _ tb).
  - intros m1 y m2 E R. destruct (rq m1 y m2 E R) as (A & B & C & D). destruct l1; discriminate C.
  - intros m1 y m2 E R. apply (split3 _ _ _ _ Connected) in E. destruct E as [(b' & -> & ->)|(a' & -> & ->)].
    + destruct (rt m1 y (b' ++ Connected :: l2)) as [A B]; [rewrite <- app_assoc; reflexivity|exact R|]. destruct b'; discriminate B.
    + destruct (rt (l1 ++ Connected :: a') y m2) as [A B]; [rewrite <- app_assoc; reflexivity|exact R|]. auto.
Qed.
(* tpsend *)
Lemma send_dt d x : dt [Data (invert d) x] = [(gives (invert d), x)].
Proof. reflexivity. Qed.
Lemma tail_send d l x : tail_ok (Some DSend) l -> tail_ok (Some d) (l ++ [Data (invert d) x]).
Proof.
  intros T l1 y l2 E. rewrite dt_app, send_dt in E. apply (split3 _ _ _ _ (true, y)) in E. destruct E as [(b' & E & ->)|(a' & E & ->)].
  - destruct (T _ _ _ E) as [_ N]. congruence.
  - destruct a' as [|z a']; cbn in E; [|injection E as _ E; destruct a'; discriminate E]. injection E as G _ <-. split; [reflexivity|]. destruct d; [discriminate G|discriminate].
Qed.
Lemma send_a b P Q sp gp sq gq d x : shape (Some DSend) b P Q sp gp sq gq -> shape (Some d) b (P ++ [Data (invert d) x]) Q (sp ++ [(gives (invert d), x)]) gp sq gq.
Proof.
  intros [d1 p1 d2 p2 o ta tb rq rt di]. constructor; try assumption.
  - intros H. rewrite dt_app, send_dt, app_assoc. f_equal. apply d1. destruct H as [N|(y & I & R)]; [left; exact N|right]. exists y. split; [|exact R]. apply in_app_iff in I. destruct I as [I|[<-|[]]]; [exact I|discriminate R].
  - apply prefix_app. exact p1.
  - intros N. apply d2. discriminate.
  - intros [_ B]. apply o. split; [left; reflexivity|exact B].
  - apply tail_send. exact ta.
  - intros l1 y l2 E R. apply (split3 _ _ _ _ y) in E. destruct E as [(b' & -> & ->)|(a' & E & ->)].
    + destruct (rq l1 y b' eq_refl R) as (A & B & C & D & F). split; [exact A|]. split; [exact B|]. split; [exact C|]. split; [|exact F]. intros z I. apply in_app_iff in I. destruct I as [I|[<-|[]]]; [exact (D z I)|reflexivity].
    + destruct a' as [|z a']; cbn in E; [injection E as <- _; discriminate R|]. injection E as _ E. destruct a'; discriminate E.
  - intros I. apply in_app_iff in I. destruct I as [I|[I|[]]]; [|discriminate I]. pose proof (di I). discriminate.
Qed.
Lemma send_b a P Q sp gp sq gq d x : shape a (Some DSend) P Q sp gp sq gq -> shape a (Some d) P (Q ++ [Data (invert d) x]) sp gp (sq ++ [(gives (invert d), x)]) gq.
Proof.
  intros [d1 p1 d2 p2 o ta tb rq rt di]. constructor; try assumption.
  - intros H. apply d1. left. discriminate.
  - intros N. rewrite dt_app, send_dt, app_assoc. f_equal. exact (d2 N).
  - apply prefix_app. exact p2.
  - intros [A _]. apply o. split; [exact A|left; reflexivity].
  - apply tail_send. exact tb.
  - intros l1 y l2 E R. destruct (rq l1 y l2 E R) as (A & _). discriminate A.
  - intros l1 y l2 E R. apply (split3 _ _ _ _ y) in E. destruct E as [(b' & -> & ->)|(a' & E & ->)].
    + destruct (rt l1 y b' eq_refl R) as (A & _). discriminate A.
    + destruct a' as [|z a']; cbn in E; [injection E as <- _; discriminate R|]. injection E as _ E. destruct a'; discriminate E.
Qed.
(* tprecv *)
Lemma recv_dt l1 d x l2 : dt l1 = [] -> dt (l1 ++ Data d x :: l2) = (gives d, x) :: dt l2 /\ dt (l1 ++ l2) = dt l2.
Proof. intros E. rewrite !dt_app, E. split; reflexivity. Qed.
Definition next (d : duplex) : option duplex := Some d.
Lemma recv_b a l1 d x l2 Q sp gp sq gq : dt l1 = [] -> shape a (Some DReceive) (l1 ++ Data d x :: l2) Q sp gp sq gq -> shape a (Some d) (l1 ++ l2) Q sp gp sq (gq ++ [(gives d, x)]).
Proof.
  intros E0 [d1 p1 d2 p2 o ta tb rq rt di]. destruct (recv_dt l1 d x l2 E0) as [E1 E2]. assert (DD : gq ++ (gives d, x) :: dt l2 = sp) by (rewrite <- E1; apply d1; left; discriminate). constructor; try assumption.
  - intros _. rewrite E2, <- app_assoc. exact DD.
  - exists (dt l2). rewrite <- app_assoc. symmetry. exact DD.
  - assert (AP : active a (l1 ++ Data d x :: l2)) by (right; rewrite E1; discriminate). assert (NQ : ~ active (Some DReceive) Q) by (intros B; apply o; split; [exact AP|exact B]).
    assert (NQ' : dt Q = []) by (destruct (dt Q) as [|z q] eqn:EQ; [reflexivity|exfalso; apply NQ; right; rewrite EQ; discriminate]).
    intros [A B]. destruct B as [B|B]; [|contradiction]. injection B as ->. destruct (ta [] x (dt l2)) as [EL NA]; [rewrite E1; reflexivity|]. destruct A as [A|A]; [contradiction|]. rewrite E2, EL in A. congruence.
  - exact (tail_sub _ _ _ _ ta).
  - assert (AP : active a (l1 ++ Data d x :: l2)) by (right; rewrite E1; discriminate). intros m1 y m2 E. exfalso. apply o. split; [exact AP|]. right. rewrite E. destruct m1; discriminate.
  - intros m1 y m2 E R. assert (I : In y (l1 ++ Data d x :: l2)) by (assert (J : In y (l1 ++ l2)) by (rewrite E; apply in_app_iff; right; left; reflexivity); apply in_app_iff in J; apply in_app_iff; destruct J as [J|J]; [left; exact J|right; right; exact J]).
    apply in_split in I. destruct I as (q1 & q2 & EQ). destruct (rq q1 y q2 EQ R) as (A & _). discriminate A.
  - intros m1 y m2 E R. destruct (rt m1 y m2 E R) as (A & _). discriminate A.
  - intros I. apply di. apply in_app_iff in I. apply in_app_iff. destruct I as [I|I]; [left; exact I|right; right; exact I].
Qed.
Lemma recv_a b l1 d x l2 P sp gp sq gq : dt l1 = [] -> shape (Some DReceive) b P (l1 ++ Data d x :: l2) sp gp sq gq -> shape (Some d) b P (l1 ++ l2) sp (gp ++ [(gives d, x)]) sq gq.
Proof.
  intros E0 [d1 p1 d2 p2 o ta tb rq rt di]. destruct (recv_dt l1 d x l2 E0) as [E1 E2]. assert (DD : gp ++ (gives d, x) :: dt l2 = sq) by (rewrite <- E1; apply d2; discriminate).
  assert (AQ : active b (l1 ++ Data d x :: l2)) by (right; rewrite E1; discriminate). assert (NP : ~ active (Some DReceive) P) by (intros B; apply o; split; [exact B|exact AQ]).
  assert (NP' : dt P = []) by (destruct (dt P) as [|z q] eqn:EQ; [reflexivity|exfalso; apply NP; right; rewrite EQ; discriminate]). constructor; try assumption.
  - intros _. rewrite E2, <- app_assoc. exact DD.
  - exists (dt l2). rewrite <- app_assoc. symmetry. exact DD.
  - intros [A B]. destruct A as [A|A]; [|contradiction]. injection A as ->. destruct (tb [] x (dt l2)) as [EL NA]; [rewrite E1; reflexivity|]. destruct B as [B|B]; [contradiction|]. rewrite E2, EL in B. congruence.
  - intros m1 y m2 E. exfalso. rewrite NP' in E. destruct m1; discriminate E.
  - exact (tail_sub _ _ _ _ tb).
  - intros m1 y m2 E R. destruct (rq m1 y m2 E R) as (_ & _ & C & _). destruct l1; discriminate C.
  - intros m1 y m2 E R. apply (split3 _ _ _ _ y) in E. destruct E as [(b' & -> & ->)|(a' & -> & ->)].
    + destruct (rt m1 y (b' ++ Data d x :: l2)) as [A B]; [rewrite <- app_assoc; reflexivity|exact R|]. destruct b'; discriminate B.
    + destruct (rt (l1 ++ Data d x :: a') y m2) as [A B]; [rewrite <- app_assoc; reflexivity|exact R|]. auto.
  - intros I. specialize (di I). discriminate di.
Qed.
(* the service is called *)
Lemma invoke_b a f d x P Q sp gp sq gq : shape a None (Request f d x :: P) Q sp gp sq gq -> shape a (Some d) P (Q ++ [Connected]) sp gp sq (gq ++ [(gives d, x)]) /\ (forall b, In b P -> is_request b = false) /\ Q = [] /\ sq = [].
Proof.
  intros [d1 p1 d2 p2 o ta tb rq rt di]. destruct (rq [] _ P eq_refl eq_refl) as (_ & _ & -> & NR & -> & ->). assert (DD : (gives d, x) :: dt P = sp) by (apply d1; right; eexists; split; [left; reflexivity|reflexivity]).
  assert (AP : active a (Request f d x :: P)) by (right; discriminate). split; [|auto]. cbn [app]. constructor.
  - intros _. exact DD.
  - exists (dt P). symmetry. exact DD.
  - exact d2.
  - exact p2.
  - intros [A B]. destruct B as [B|B]; [|apply B; reflexivity]. injection B as ->. destruct (ta [] x (dt P) eq_refl) as [EL NA]. destruct A as [A|A]; contradiction.
  - intros l1 y l2 E. destruct (ta ((gives d, x) :: l1) y l2) as [A B]; [change (dt (Request f d x :: P)) with ((gives d, x) :: dt P); rewrite E; reflexivity|]. auto.
  - intros [|z l1] y l2 E; discriminate E.
  - intros l1 y l2 -> R. rewrite (NR y) in R; [discriminate|]. apply in_app_iff. right. left. reflexivity.
  - intros [|z l1] y l2 E R; cbn in E; [injection E as <- _; discriminate R|injection E as _ E; destruct l1; discriminate E].
  - intros I. apply di. right. exact I.
Qed.
(* the service returns *)
Lemma return_b a P Q sp gp sq gq code user data : (forall y, In y Q -> is_returned y = false) -> (forall y, In y P -> is_request y = false) -> shape a None P Q sp gp sq gq -> shape a None P (Q ++ [Returned code user data]) sp gp sq gq.
Proof.
  intros NQ NP [d1 p1 d2 p2 o ta tb rq rt di]. constructor; try assumption.
  - intros N. rewrite dt_app. cbn [dt flat_map]. rewrite app_nil_r. exact (d2 N).
  - intros [A B]. apply o. split; [exact A|]. apply (active_quiet _ _ (Returned code user data)); [reflexivity|exact B].
  - apply tail_quiet; [reflexivity|exact tb].
  - intros l1 x l2 -> R. rewrite (NP x) in R; [discriminate|]. apply in_app_iff. right. left. reflexivity.
  - intros l1 x l2 E R. apply (split3 _ _ _ _ x) in E. destruct E as [(b' & -> & ->)|(a' & E & ->)].
    + rewrite (NQ x) in R; [discriminate|]. apply in_app_iff. right. left. reflexivity.
    + split; [reflexivity|]. destruct a' as [|z a']; cbn in E; [injection E as _ <-; reflexivity|]. injection E as _ E. destruct a'; discriminate E.
Qed.
Lemma call_shape d f x : shape (Some d) None [Request f (invert d) x] [] [(gives (invert d), x)] [] [] [].
Proof.
  constructor.
  - intros _. reflexivity.
  - apply prefix_nil.
  - intros _. reflexivity.
  - apply prefix_nil.
  - intros [_ [B|B]]; [discriminate|apply B; reflexivity].
  - intros [|z l1] y l2 E; cbn in E; [injection E as G _ <-; split; [reflexivity|destruct d; [discriminate G|discriminate]]|injection E as _ E; destruct l1; discriminate E].
  - intros [|z l1] y l2 E; discriminate E.
  - intros [|z l1] y l2 E R; cbn in E; [injection E as _ <-|injection E as _ E; destruct l1; discriminate E]. repeat split; auto; intros y0 [].
  - intros [|z l1] y l2 E; discriminate E.
  - intros [H|[]]. discriminate H.
Qed.
