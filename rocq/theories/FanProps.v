(* C18: fan-out coordination.  The correlations of the started requests are pairwise different: they are generated UUIDs. *)
From Coq Require Import ZArith List Bool Lia.
From Verif Require Import FanModel FanSpec FanProofs.
Import ListNotations.
Local Open Scope Z_scope.

(* For every history of fan-outs, replies and failures, and every fan-out in it: if at some point every request of it has been
   received or has failed, its callback is invoked exactly once, with the replies received and the outcome of every request at
   the first such point; otherwise it is never invoked.  Nothing fails (no assertion). *)
Theorem C18_exactly_once : forall (M C : Type) (os1 os2 : list (fop M C)) ps cb,
  NoDup (started (os1 ++ Start ps cb :: os2)) ->
  exists f d, fan_run fan_empty (os1 ++ Start ps cb :: os2) = Some (f, d) /\
  let k := starts os1 in
  ((exists r, completes (begin ps) os2 r /\ of_key k d = [mk_fired k cb (snd r) (fst r)]) \/
   ((forall r : progress M, ~ completes (begin ps) os2 r) /\ of_key k d = [])).
Proof. exact @fan_exactly_once. Qed.

(* the outcome handed to the callback has one element per request, in order, none of them pending *)
Theorem C18_outcome_per_request : forall (M C : Type) (os : list (fop M C)) ps (r : progress M),
  completes (begin ps) os r ->
  map (fun p => (p_corr p, p_id p)) (fst r) = ps /\ (forall p, In p (fst r) -> p_state p = Received \/ p_state p = Failed).
Proof. exact @completes_outcome. Qed.

(* the replies handed over are replies to these requests that did arrive, at most one for each request; a request whose outcome
   is received has its reply among them *)
Theorem C18_replies : forall (M C : Type) (os : list (fop M C)) ps (r : progress M),
  NoDup (map fst ps) -> completes (begin ps) os r ->
  NoDup (map fst (snd r)) /\
  (forall c m, In (c, m) (snd r) -> In c (map fst ps) /\ In (Reply c m) os) /\
  (forall p, In p (fst r) -> p_state p = Received -> exists m, In (p_corr p, m) (snd r)).
Proof. exact @completes_replies. Qed.

(* a reply nobody waits for - unknown, repeated, or late after a failure - changes nothing *)
Theorem C18_unknown_reply_ignored : forall (M C : Type) (os : list (fop M C)) f d c m,
  NoDup (started os) -> fan_run fan_empty os = Some (f, d) ->
  (forall os1 ps cb os2, os = os1 ++ Start ps cb :: os2 -> In c (map fst ps) ->
      (exists m', In (Reply c m') os2) \/ (exists id, In (c, id) ps /\ In (Fail id) os2)) ->
  fan_reply c m f = Some (f, []).
Proof. exact @unknown_ignored. Qed.

(* a reply that was received counts as failed if the same party fails before the others are done *)
Theorem C18_answered_may_be_failed : exists (os : list (fop Z Z)) f d,
  fan_run fan_empty os = Some (f, d) /\ d = [mk_fired 0 7 [(1, 100)] [mk_p 1 10 Failed; mk_p 2 10 Failed]].
Proof. exists [Start [(1, 10); (2, 10)] 7; Reply 1 100; Fail 10]. eexists. eexists. split; reflexivity. Qed.

Example ex_C18 : 
  let os := [Start [(1, 10); (2, 11)] 7; Start [(3, 10)] 8; Reply 9 0; Reply 2 5; Reply 2 6; Fail 10; Reply 1 4] in
  NoDup (started os) /\
  fan_run fan_empty os =
    Some (mk_f [] [] 2, [mk_fired 0 7 [(2, 5)] [mk_p 1 10 Failed; mk_p 2 11 Received]; mk_fired 1 8 [] [mk_p 3 10 Failed]]).
Proof. split; [|reflexivity]. simpl. repeat constructor; simpl; lia. Qed.

Print Assumptions C18_exactly_once.
Print Assumptions C18_outcome_per_request.
Print Assumptions C18_replies.
Print Assumptions C18_unknown_reply_ignored.
Print Assumptions C18_answered_may_be_failed.
