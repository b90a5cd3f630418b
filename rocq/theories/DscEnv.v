(* The discovery: what the state has of what has arrived. *)
From Coq Require Import ZArith List Bool Lia.
From Verif Require Import DscModel DscSpec DscProofs DscHold.
Import ListNotations.
Local Open Scope Z_scope.

Lemma reach_h s h : reach s h -> h = [] \/ exists d c ev t, h = (Begin d c, ev) :: t.
Proof.
  induction 1 as [|s h i R IH P]; [auto|]. right. destruct IH as [->|(d & c & ev & t & ->)].
  - destruct i; cbn in P; try (destruct P as [P _]; congruence). cbn. eauto.
  - cbn. eauto.
Qed.
Lemma self_snoc h i ev d c ev0 t : h = (Begin d c, ev0) :: t -> self (h ++ [(i, ev)]) = self h.
Proof. intros ->. reflexivity. Qed.

Record env (h : history) (s : state) : Prop := {
  e_down : s_down s = true <-> down h;
  e_lost : forall p, In p (s_lost s) <-> lost p h;
  e_config : s_config s = configured h;
  e_self : s_self s = self h;
  e_prov : map (fun v => (v_proc v, v_abilities v)) (s_providers s) = registered h
}.
Lemma env_fixed h s s' : fixed s' = fixed s -> env h s -> env h s'.
Proof. unfold fixed. intro F. injection F as F1 F2 F3 F4 F5 F6. intros []. split; [rewrite F1|rewrite F6|rewrite F3|rewrite F2|rewrite F4]; auto. Qed.
Lemma registered_snoc h x : registered (h ++ [x]) = registers (registered h) x.
Proof. unfold registered. now rewrite fold_left_app. Qed.
Lemma filter_all {A} (f : A -> bool) l : (forall x, f x = true) -> filter f l = l.
Proof. intro H. induction l as [|x l IH]; cbn; [auto|]. now rewrite H, IH. Qed.
Lemma filter_map' {A B} (g : A -> B) (f : B -> bool) l : filter f (map g l) = map g (filter (fun x => f (g x)) l).
Proof. induction l as [|x l IH]; cbn; [auto|]. destruct (f (g x)); cbn; now rewrite IH. Qed.
Lemma forallb_negb {A} (f g : A -> bool) l : (forall x, g x = negb (f x)) -> forallb g l = negb (existsb f l).
Proof. intro H. induction l as [|x l IH]; cbn; [auto|]. rewrite IH, H. now destruct (f x). Qed.
Lemma forallb_map {A B} (g : A -> B) (f : B -> bool) l : forallb f (map g l) = forallb (fun x => f (g x)) l.
Proof. induction l; cbn; congruence. Qed.
Lemma confirmed_iff s p k a : confirmed p (snd (step (Register p k a) s)) = negb (gone (p_ipc p) s).
Proof. rewrite step_snd. cbn. destruct (gone (p_ipc p) s); cbn; [auto|]. now rewrite Z.eqb_refl. Qed.
Lemma env_step s h i : reach s h -> possible h i -> env h s -> env (h ++ [(i, snd (step i s))]) (before i s).
Proof.
  intros R P [D L C S V]. split.
  - unfold down. rewrite inputs_snoc, in_snoc. destruct i; cbn [before]; try (cbn; rewrite D; intuition discriminate). + destruct (gone _ s); [rewrite D; intuition discriminate|]. destruct (existsb _ _); cbn; rewrite D; intuition discriminate. + cbn. intuition.
  - intro q. unfold lost. rewrite inputs_snoc, in_snoc. destruct i; cbn [before]; try (cbn; rewrite L; intuition discriminate). + destruct (gone _ s); [rewrite L; intuition discriminate|]. destruct (existsb _ _); cbn; rewrite L; intuition discriminate. + cbn. rewrite L. split; [intros [->|H]; auto|]. intros [H|H]; [auto|]. injection H. auto.
  - rewrite configured_snoc. destruct i; cbn [before]; auto. destruct (gone _ s); [auto|]. destruct (existsb _ _); auto.
  - destruct (reach_h _ _ R) as [->|(d & c & ev & t & E)].
    + destruct i; cbn in P; try (destruct P as [P _]; congruence). reflexivity.
    + rewrite (self_snoc _ _ _ _ _ _ _ E). destruct i; cbn [before]; auto. * cbn in P. subst h. discriminate. * destruct (gone _ s); [auto|]. destruct (existsb _ _); auto.
  - rewrite registered_snoc, <- V. unfold registers. cbn [fst snd].
    destruct i; cbn [before]; try (rewrite filter_all; [reflexivity|auto]).
    + rewrite confirmed_iff, forallb_map. cbn [fst]. rewrite (forallb_negb (fun v => p_ipc (v_proc v) =? p_ipc p)); [|auto]. destruct (gone (p_ipc p) s); cbn [negb andb]; [reflexivity|]. destruct (existsb _ (s_providers s)); cbn [negb]; [reflexivity|]. cbn. now rewrite map_app.
    + cbn. now rewrite filter_map'.
    + cbn. now rewrite filter_map'.
Qed.
Lemma reach_env s h : reach s h -> env h s.
Proof.
  induction 1 as [|s h i R IH P].
  - split; cbn; auto; try (unfold down, lost; cbn; intuition discriminate).
  - rewrite step_fst. apply (env_fixed _ _ _ (handle_fixed i s)). now apply env_step.
Qed.
Lemma provides_iff h s a p : env h s -> (provides a p h <-> In p (with_ability a s)).
Proof.
  intros [_ _ _ _ V]. unfold provides, with_ability. rewrite <- V. split.
  - intros (l & I & J). apply in_map_iff in I as ([q m] & E & I). injection E as -> ->. apply in_map_iff. exists (Provider p l). split; [auto|]. apply filter_In. split; [auto|]. apply existsb_exists. exists a. split; [auto|]. now destruct a.
  - intro I. apply in_map_iff in I as ([q l] & E & I). cbn in E. subst q. apply filter_In in I as [I J]. unfold able in J. apply existsb_exists in J as (b & J & B). assert (b = a) by (destruct a, b; auto; discriminate). subst b. exists l. split; [|auto]. apply in_map_iff. exists (Provider p l). auto.
Qed.
Lemma gone_lost h s p : env h s -> (gone p s = true <-> lost p h).
Proof. intro E. rewrite gone_iff. apply (e_lost _ _ E). Qed.
