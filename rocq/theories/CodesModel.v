(* The result codes of XA and TX, how they are ranked, added and converted.
   Sources (under /repo/middleware/common): source/code/xa.cpp, source/code/tx.cpp, source/code/convert.cpp,
   include/common/code/xa.h, include/common/code/tx.h. *)
From Coq Require Import ZArith List Bool.
Import ListNotations.
Local Open Scope Z_scope.

(* enum code::xa, xa.h:39-70.  Resource managers deliver plain integers that are cast: [xa_other] is any other value. *)
Inductive xa :=
| rollback_unspecified | rollback_communication | rollback_deadlock | rollback_other | rollback_protocoll
| rollback_timeout | rollback_transient | rollback_integrity
| no_migrate | heuristic_hazard | heuristic_commit | heuristic_rollback | heuristic_mix | retry | read_only | xa_ok
| outstanding_async | invalid_xid | xa_argument | xa_protocol | resource_fail | resource_error | duplicate_xid | xa_outside
| xa_other (v : Z).

(* enum severity::order, xa.cpp:70-97, as position *)
Definition severity (c : xa) : nat :=            (* convert( code::xa), xa.cpp:133-166 *)
  match c with
  | heuristic_hazard => 0 | heuristic_mix => 1 | heuristic_commit => 2 | heuristic_rollback => 3
  | resource_fail => 4 | resource_error => 5
  | rollback_integrity => 6 | rollback_communication => 7 | rollback_unspecified => 8 | rollback_other => 9
  | rollback_deadlock => 10 | xa_protocol => 11 | rollback_protocoll => 12 | rollback_timeout => 13 | rollback_transient => 14
  | xa_argument => 15 | no_migrate => 16 | xa_outside => 17 | outstanding_async => 18 | retry => 19
  | duplicate_xid => 20 | invalid_xid => 21 | xa_ok => 22 | read_only => 23
  | xa_other _ => 5
  end%nat.

(* convert( severity::order), xa.cpp:99-131 *)
Definition of_severity (n : nat) : xa :=
  match n with
  | 0 => heuristic_hazard | 1 => heuristic_mix | 2 => heuristic_commit | 3 => heuristic_rollback
  | 4 => resource_fail | 5 => resource_error
  | 6 => rollback_integrity | 7 => rollback_communication | 8 => rollback_unspecified | 9 => rollback_other
  | 10 => rollback_deadlock | 11 => xa_protocol | 12 => rollback_protocoll | 13 => rollback_timeout | 14 => rollback_transient
  | 15 => xa_argument | 16 => no_migrate | 17 => xa_outside | 18 => outstanding_async | 19 => retry
  | 20 => duplicate_xid | 21 => invalid_xid | 22 => xa_ok | 23 => read_only
  | _ => resource_error
  end%nat.

(* severest, xa.cpp:194-197; std::min returns the first when equal, which gives the same order value *)
Definition severest (a b : xa) : xa := of_severity (Nat.min (severity a) (severity b)).

(* enum code::tx, tx.h:21-42 *)
Inductive tx :=
| not_supported | tx_ok | tx_outside | tx_rollback | mixed | hazard | tx_protocol | tx_error | fail | tx_argument | committed
| no_begin | no_begin_rollback | no_begin_mixed | no_begin_hazard | no_begin_committed.

(* the values, casual/tx/code.h *)
Definition tx_value (c : tx) : Z :=
  match c with
  | not_supported => 1 | tx_ok => 0 | tx_outside => -1 | tx_rollback => -2 | mixed => -3 | hazard => -4
  | tx_protocol => -5 | tx_error => -6 | fail => -7 | tx_argument => -8 | committed => -9
  | no_begin => -100
  | no_begin_rollback => -2 + -100 | no_begin_mixed => -3 + -100
  | no_begin_hazard => -4 + -100 | no_begin_committed => -9 + -100
  end.
Definition tx_eqb (a b : tx) : bool := tx_value a =? tx_value b.

(* convert::to::tx, convert.cpp:21-57 *)
Definition to_tx (c : xa) : tx :=
  match c with
  | rollback_unspecified | rollback_communication | rollback_deadlock | rollback_integrity | rollback_other
  | rollback_protocoll | rollback_timeout | rollback_transient | no_migrate | heuristic_hazard => hazard
  | heuristic_commit | heuristic_rollback | heuristic_mix => mixed
  | read_only => tx_ok
  | xa_ok => tx_ok
  | invalid_xid => no_begin
  | xa_argument | xa_protocol => tx_protocol
  | resource_error | resource_fail => fail
  | retry | outstanding_async | duplicate_xid => tx_argument
  | xa_outside => tx_outside
  | xa_other _ => fail
  end.

(* the lambda no_begin_combination, tx.cpp:97-109 *)
Definition no_begin_combination (c : tx) : tx :=
  match c with
  | tx_rollback => no_begin_rollback
  | mixed => no_begin_mixed
  | hazard => no_begin_hazard
  | committed => no_begin_committed
  | _ => no_begin
  end.

(* prioritized_range, tx.cpp:133-146 *)
Definition prioritized : list tx :=
  [not_supported; tx_argument; hazard; mixed; fail; tx_error; committed; tx_rollback; tx_protocol; tx_outside; tx_ok].

(* algorithm::find: the rest of the range from the found element on; its size, None if not found *)
Fixpoint found_size (c : tx) (l : list tx) : option nat :=
  match l with
  | [] => None
  | x :: r => if tx_eqb x c then Some (length l) else found_size c r
  end.

(* operator +, tx.cpp:91-154 *)
Definition tx_add (l r : tx) : tx :=
  if tx_eqb l r then l
  else if tx_eqb l no_begin then no_begin_combination r
  else if tx_eqb r no_begin then no_begin_combination l
  else if tx_value l <? tx_value no_begin then l
  else if tx_value r <? tx_value no_begin then r
  else match found_size l prioritized, found_size r prioritized with
       | Some fl, Some fr => if Nat.leb fr fl then l else r
       | _, _ => l
       end.
