(* Conversations and the transaction of the process: what tpconnect, tpsend, tprecv and tpdiscon do to the transaction context.
   Source: /repo/middleware/common/source/service/conversation/context.cpp:310-316, the only place where this file uses the transaction context;
   Transaction::associate, transaction.cpp:27-31. Context::update, that takes the association away, is only called for replies to tpcall and tpacall,
   service/call/context.cpp:266. *)
From Coq Require Import ZArith List Bool.
From Verif Require ConvModel.
From Verif Require Import CodesModel CtxModel CtxSpec CtxProofs CtxHeld CtxXa CtxMore CtxPend.
Import ListNotations.
Local Open Scope Z_scope.

(* what the program does: a call that is about transactions (or a reply to tpcall or tpacall), or one that is about conversations; then if TPNOTRAN is
   given, and the correlation that the conversation has *)
Inductive use := Tx (i : call) | Conv (i : ConvModel.input) (no_tran : bool) (k : Z).
(* context.cpp:310-316: the request is sent with the transaction, and its correlation is associated with it, before the send; nothing in the other calls *)
Definition calls_of (u : use) : list call :=
  match u with
  | Tx i => [i]
  | Conv (ConvModel.Tpconnect so ro _ (ConvModel.Found _ _)) no_tran k => if xorb so ro && negb no_tran then [ServiceCall k] else []
  | Conv _ _ _ => []
  end.
Definition program (us : list use) : list call := flat_map calls_of us.

Lemma conv_blocks e d f c k x so ro data t fails us : reach e d f c -> x <> 0 -> x < c_next c -> (forall u, In u (removelast (c_txs c)) -> x_id (t_id u) <> x) -> in_tx c = x -> xorb so ro = true ->
  (forall i, In (Tx i) us -> not_joined x i /\ forall s, i <> Reply k s) ->
  let c' := fst (run e (program (Conv (ConvModel.Tpconnect so ro data (ConvModel.Found t fails)) false k :: us)) c) in in_tx c' = x -> step e Commit c' = (c', RTx tx_protocol).
Proof.
  intros R NZ L U IT X F. cbn [program flat_map calls_of]. rewrite X. cbn [negb andb app]. fold (program us).
  assert (P : forall i, In i (program us) -> not_joined x i /\ forall s, i <> Reply k s).
  { intros i I. apply in_flat_map in I. destruct I as (u & Iu & I). destruct u as [j|j nt k']; cbn in I; [destruct I as [<-|[]]; exact (F j Iu)|].
    destruct j; try contradiction. destruct l; [|contradiction]. destruct (xorb _ _ && _); [|contradiction]. destruct I as [<-|[]]. cbn. split; [exact Logic.I|intros s E; discriminate E]. }
  apply (call_blocks e d f c k x (program us) R NZ L U IT).
  - apply Forall_forall. intros i I. exact (proj1 (P i I)).
  - intros s I. exact (proj2 (P _ I) s eq_refl).
Qed.
