(* Model of the xatmi calls of a process: tpacall, tpgetrply, tpcancel, tpcall, the call descriptors, and their interplay with the
   transaction context (CtxModel).
   Source: /repo/middleware/common/source/service/call/{context,state}.cpp, service/lookup.cpp, /repo/middleware/xatmi/source/xatmi/explicit/service.cpp.

   Simplifications, all deliberate:
   - The inbound device is the list of the call replies it holds, and the correlations to discard; a reply arrives as a whole. That the device
     is this, whatever datagrams arrive, is C29, C30 and C49 (IpcModel).
   - What the outside world does is part of the input: the outcome of the lookup, of the send of the request, if a signal arrives when the
     process waits for a reply, and the replies that arrive when it's inside of tpcall.
   - A payload is an integer. Buffers of the caller (that they are in the pool, TPNOCHANGE) and the deadline are left out.
   - A correlation is the next value of a counter (a fresh UUID, ipc.cpp). *)
From Coq Require Import ZArith List Bool.
From Verif Require Import CodesModel CtxModel.
Import ListNotations.
Local Open Scope Z_scope.

(* xatmi.h *)
Definition TPEBADDESC : Z := 2.
Definition TPEBLOCK : Z := 3.
Definition TPEINVAL : Z := 4.
Definition TPENOENT : Z := 6.
Definition TPESVCERR : Z := 10.
Definition TPESVCFAIL : Z := 11.
Definition TPESYSTEM : Z := 12.
Definition TPETIME : Z := 13.
Definition TPETRAN : Z := 14.
Definition TPGOTSIG : Z := 15.

(* message::service::call::Reply: code.result, code.user, transaction_state, buffer; message/service.h *)
Record reply := mk_reply { r_code : Z; r_user : Z; r_state : Z; r_data : Z }.

(* state::pending::Descriptor, call/state.h:28-43; a nil correlation is 0 *)
Record desc := mk_desc { d_id : Z; d_active : bool; d_corr : Z }.

Inductive event :=
| Lookup (c : Z)                                              (* asked the service manager for an instance *)
| Request (c d x : Z)                                         (* sent the request, to be known as descriptor d (0: no reply), in transaction x (0: none) *)
| Arrived (c : Z) (r : reply)                                 (* a reply arrived at the process *)
| Took (c : Z) (r : reply)                                    (* and was taken from the device *)
| Discarded (c : Z).                                          (* the device was told to throw away the reply *)

Record proc := mk_proc { p_descs : list desc; p_cache : list (Z * reply); p_disc : list Z; p_next : Z; p_tx : ctx }.
Definition w_descs x s := mk_proc x (p_cache s) (p_disc s) (p_next s) (p_tx s).
Definition w_cache x s := mk_proc (p_descs s) x (p_disc s) (p_next s) (p_tx s).
Definition w_disc x s := mk_proc (p_descs s) (p_cache s) x (p_next s) (p_tx s).
Definition w_corr x s := mk_proc (p_descs s) (p_cache s) (p_disc s) x (p_tx s).
Definition w_tx x s := mk_proc (p_descs s) (p_cache s) (p_disc s) (p_next s) x.

(* ---------------------------------------------------------------- descriptors *)
(* Pending::Pending, call/state.cpp:22-33 *)
Definition first_descs : list desc := map (fun n => mk_desc n false 0) [1; 2; 3; 4; 5; 6; 7; 8].
(* Pending::reserve, call/state.cpp:35-60: the first that isn't active, or one more than the last *)
Fixpoint reserve (corr last : Z) (l : list desc) : list desc * Z :=
  match l with
  | [] => ([mk_desc (last + 1) true corr], last + 1)
  | x :: r => if d_active x then let '(r1, d) := reserve corr (d_id x) r in (x :: r1, d) else (mk_desc (d_id x) true corr :: r, d_id x)
  end.
(* Pending::unreserve, call/state.cpp:62-68: the first with the number *)
Fixpoint unreserve (d : Z) (l : list desc) : list desc :=
  match l with [] => [] | x :: r => if d_id x =? d then mk_desc d false (d_corr x) :: r else x :: unreserve d r end.
(* Pending::get( descriptor), call/state.cpp:78-94 *)
Definition get (d : Z) (l : list desc) : option desc :=
  match find (fun x => d_id x =? d) l with Some x => if d_active x then Some x else None | None => None end.
(* Pending::get( correlation), call/state.cpp:96-103 *)
Definition get_corr (c : Z) (l : list desc) : option desc :=
  match find (fun x => d_corr x =? c) l with Some x => if d_active x then Some x else None | None => None end.

(* ---------------------------------------------------------------- the inbound device *)
(* the first of the list that satisfies, and the others *)
Fixpoint take {A} (p : A -> bool) (l : list A) : option (A * list A) :=
  match l with [] => None | x :: r => if p x then Some (x, r) else match take p r with Some (y, q) => Some (y, x :: q) | None => None end end.
(* Inbound::find, discard( complete); communication/device.h:389-430 *)
Definition arrive (c : Z) (r : reply) (s : proc) : proc :=
  if mem c (p_disc s) then w_disc (erase_first c (p_disc s)) s else w_cache (p_cache s ++ [(c, r)]) s.
(* Inbound::discard, communication/device.h:256-272 *)
Definition discard (c : Z) (s : proc) : proc :=
  match take (fun x => fst x =? c) (p_cache s) with
  | Some (_, l) => w_cache l s
  | None => if mem c (p_disc s) then s else w_disc (p_disc s ++ [c]) s
  end.

(* ---------------------------------------------------------------- the calls *)
(* the outcome of the lookup and, if there is an instance, of the send: None is success, or the code of the exception *)
Inductive lookup := L_idle (send : option Z) | L_absent | L_timeout | L_signal.
(* what the caller gets *)
Inductive output :=
| O_descriptor (d : Z)                                        (* tpacall *)
| O_reply (d : Z) (r : reply)                                 (* tpgetrply, tpcall: success *)
| O_fail (d : Z) (r : reply)                                  (* -1 with TPESVCFAIL: with a reply *)
| O_error (code : Z)                                          (* -1 with tperrno *)
| O_done
| O_waits                                                     (* the call hasn't returned; the same again later *)
| O_tx (r : result).

Definition in_transaction (s : proc) : bool := negb (is_null (t_id (current (p_tx s)))).

(* casual_service_asynchronous_send, explicit/service.cpp:105-146; Context::async, prepare::lookup, prepare::message, call/context.cpp:57-186;
   lookup::reply, validate, lookup.cpp:44-75; the scope that unreserves (context.cpp:155) raises for descriptor 0, which is only logged *)
Definition acall (e : env) (notran noreply : bool) (l : lookup) (s : proc) : proc * output * list event :=
  let associated := in_transaction s && negb notran in
  if associated && noreply then (s, O_error TPEINVAL, [])
  else
    let c := p_next s in
    let s0 := w_corr (c + 1) s in
    match l with
    | L_absent => (s0, O_error TPENOENT, [Lookup c])
    | L_timeout => (s0, O_error TPETIME, [Lookup c])
    | L_signal => (s0, O_error TPGOTSIG, [Lookup c])
    | L_idle send =>
        if noreply then
          match send with
          | None => (s0, O_descriptor 0, [Lookup c; Request c 0 0])
          | Some code => (s0, O_error code, [Lookup c])
          end
        else
          let '(ds, d) := reserve c 0 (p_descs s) in
          let s1 := w_descs ds s0 in
          let s2 := if associated then w_tx (fst (step e (ServiceCall c) (p_tx s1))) s1 else s1 in
          match send with
          | None => (s2, O_descriptor d, [Lookup c; Request c d (if associated then x_id (t_id (current (p_tx s))) else 0)])
          | Some code => (w_descs (unreserve d (p_descs s2)) s2, O_error code, [Lookup c])
          end
    end.

(* Context::reply after get_reply, call/context.cpp:268-297 *)
Definition complete (e : env) (c d : Z) (r : reply) (s : proc) : proc * output :=
  let s1 := w_tx (fst (step e (Reply c (r_state r)) (p_tx s))) s in
  let s2 := w_descs (unreserve d (p_descs s1)) s1 in
  (s2, if r_code r =? 0 then O_reply d r
       else if r_code r =? TPESVCFAIL then O_fail d r
       else O_error (r_code r)).
(* get_reply, call/context.cpp:225-262; sig: a signal arrives if the call waits *)
Definition nothing (noblock sig : bool) (s : proc) : proc * output * list event :=
  (s, if noblock then O_error TPEBLOCK else if sig then O_error TPGOTSIG else O_waits, []).
Definition get_reply (e : env) (d : Z) (any noblock sig : bool) (s : proc) : proc * output * list event :=
  if any then
    match p_cache s with
    | [] => nothing noblock sig s
    | (c, r) :: l =>
        let s1 := w_cache l s in
        match get_corr c (p_descs s1) with
        | None => (s1, O_error TPEBADDESC, [Took c r])
        | Some x => let '(s2, o) := complete e c (d_id x) r s1 in (s2, o, [Took c r])
        end
    end
  else
    match get d (p_descs s) with
    | None => (s, O_error TPEBADDESC, [])
    | Some x =>
        match take (fun m => fst m =? d_corr x) (p_cache s) with
        | None => nothing noblock sig s
        | Some ((c, r), l) => let '(s2, o) := complete e c (d_id x) r (w_cache l s) in (s2, o, [Took c r])
        end
    end.

(* casual_service_asynchronous_receive, explicit/service.cpp:148-207 *)
Definition getrply (e : env) (d : Z) (any noblock sig : bool) (s : proc) : proc * output * list event :=
  let '(s1, o, ev) := get_reply e d any noblock sig s in
  (s1, match o with O_error k => O_error (if k =? TPENOENT then TPESVCERR else k) | _ => o end, ev).

(* Context::associated, transaction/context.cpp:108-114 *)
Definition associated (c : Z) (t : ctx) : bool := existsb (fun t => (t_state t =? active) && mem c (t_pend t)) (c_txs t).
(* casual_service_asynchronous_cancel, Pending::discard, call/state.cpp:105-118 *)
Definition cancel (d : Z) (s : proc) : proc * output * list event :=
  match get d (p_descs s) with
  | None => (s, O_error TPEBADDESC, [])
  | Some x =>
      if associated (d_corr x) (p_tx s) then (s, O_error TPETRAN, [])
      else let s1 := discard (d_corr x) s in (w_descs (unreserve d (p_descs s1)) s1, O_done, [Discarded (d_corr x)])
  end.

(* suspend::wrapper, call/context.cpp:308-345, Context::resources_suspend, resources_resume, transaction/context.cpp:1105-1126 *)
Definition sync_suspend (e : env) (t : ctx) : ctx * bool :=
  let u := current t in
  let t0 := match t_inv u with [] => t | rs => log (TmTold (x_id (t_id u)) rs) t end in
  let '(t1, code) := end_all e EndSuspend u t0 in (t1, tx_eqb code tx_ok).
Definition sync_resume (e : env) (t : ctx) : ctx :=
  let '(t1, u, _) := start_these e StartResume (current t) (c_fixed t) t in set_current u t1.
(* casual_service_call, explicit/service.cpp:44-103, Context::sync, call/context.cpp:349-361; arrivals: the replies that arrive when it waits; a
   signal ends the wait if there's no reply. The call isn't done as long as it waits *)
Definition tpcall (e : env) (notran : bool) (l : lookup) (arrivals : list (Z * reply)) (s : proc) : proc * output * list event :=
  let suspends := in_transaction s && negb notran in
  let '(t1, ok) := if suspends then sync_suspend e (p_tx s) else (p_tx s, true) in
  if ok then
    let '(s2, o2, ev2) := acall e notran false l (w_tx t1 s) in
    let '(s3, o3, ev3) :=
      match o2 with
      | O_descriptor d =>
          let s3 := fold_left (fun s x => arrive (fst x) (snd x) s) arrivals s2 in
          let '(s4, o4, ev4) := get_reply e d false false true s3 in
          (s4, o4, map (fun x => Arrived (fst x) (snd x)) arrivals ++ ev4)
      | _ => (s2, o2, [])
      end in
    (if suspends then w_tx (sync_resume e (p_tx s3)) s3 else s3, o3, ev2 ++ ev3)
  else (w_tx t1 s, O_error TPESYSTEM, []).

Inductive input :=
| Tpacall (notran noreply : bool) (l : lookup)
| Tpgetrply (d : Z) (any noblock sig : bool)
| Tpcancel (d : Z)
| Tpcall (notran : bool) (l : lookup) (arrivals : list (Z * reply))
| Arrive (c : Z) (r : reply)
| Tx (i : call).                  (* the transaction context, CtxModel, but for ServiceCall and Reply which are part of the calls above *)

(* Context::finalize discards the pending replies of all transactions, transaction/context.cpp:543-560 *)
Definition pending_of (t : ctx) : list Z := flat_map t_pend (c_txs t).
Definition xstep (e : env) (i : input) (s : proc) : proc * output * list event :=
  match i with
  | Tpacall notran noreply l => acall e notran noreply l s
  | Tpgetrply d any noblock sig => getrply e d any noblock sig s
  | Tpcancel d => cancel d s
  | Tpcall notran l arrivals => tpcall e notran l arrivals s
  | Arrive c r => (arrive c r s, O_done, [Arrived c r])
  | Tx (ServiceCall _) | Tx (Reply _ _) => (s, O_done, [])
  | Tx (Finalize b) =>
      let cs := pending_of (p_tx s) in
      let s1 := fold_left (fun s c => discard c s) cs s in
      let '(t, r) := step e (Finalize b) (p_tx s1) in (w_tx t s1, O_tx r, map Discarded cs)
  | Tx i => let '(t, r) := step e i (p_tx s) in (w_tx t s, O_tx r, [])
  end.

Definition start (dynamic fixed : list Z) : proc := mk_proc first_descs [] [] 1 (init dynamic fixed).
(* a history: what was called, what the caller got, and what happened *)
Definition entry : Type := (input * output * list event).
Fixpoint xrun (e : env) (is : list input) (s : proc) : proc * list entry :=
  match is with
  | [] => (s, [])
  | i :: q => let '(s1, o, ev) := xstep e i s in let '(s2, h) := xrun e q s1 in (s2, (i, o, ev) :: h)
  end.
