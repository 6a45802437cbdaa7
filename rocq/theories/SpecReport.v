(** Histories of requests to a report manager, and what they mean. *)
From Verif Require Import Base ModelUtil ModelReport.
Local Open Scope N_scope.

(** The three requests. *)
Inductive rm_op :=
| AskId (r : report)
| Register (id : N) (e : ext_info)
| AskKey (a : N).

(** Running a history. *)
Definition rm_step (rm : report_manager) (o : rm_op) : outcome report_manager :=
  match o with
  | AskId r => let! (rm', _) := get_internal_id rm r in Ret rm'
  | Register id e => Ret (fst (register_ext_report rm id e))
  | AskKey a => let! (rm', _) := get_exhaustible_key rm a in Ret rm'
  end.
Fixpoint rm_run (rm : report_manager) (h : list rm_op) : outcome report_manager :=
  match h with
  | [] => Ret rm
  | o :: t => let! rm' := rm_step rm o in rm_run rm' t
  end.

(** In history [h] report [r] was at some point answered with id [k]. *)
Definition id_issued (limit : N) (h : list rm_op) (r : report) (k : N) : Prop :=
  exists h1 h2 rm1 rm2, h = h1 ++ AskId r :: h2 /\ rm_run (rm_new limit) h1 = Ret rm1 /\
    get_internal_id rm1 r = Ret (rm2, ROk k).
(** In history [h] match id [a] was at some point answered with key [k]. *)
Definition key_issued (limit : N) (h : list rm_op) (a k : N) : Prop :=
  exists h1 h2 rm1 rm2, h = h1 ++ AskKey a :: h2 /\ rm_run (rm_new limit) h1 = Ret rm1 /\
    get_exhaustible_key rm1 a = Ret (rm2, k).
(** In history [h] the registration [(id, e)] succeeded at some point. *)
Definition registered (limit : N) (h : list rm_op) (id : N) (e : ext_info) : Prop :=
  exists h1 h2 rm1 rm2, h = h1 ++ Register id e :: h2 /\ rm_run (rm_new limit) h1 = Ret rm1 /\
    register_ext_report rm1 id e = (rm2, ROk tt).
(** The first registration of [id] in [h]. *)
Fixpoint first_registration (h : list rm_op) (id : N) : option ext_info :=
  match h with
  | [] => None
  | Register id' e :: t => if id =? id' then Some e else first_registration t id
  | _ :: t => first_registration t id
  end.
(** The match ids asked for, in order, without repetitions. *)
Fixpoint asked_keys (h : list rm_op) : list N :=
  match h with
  | [] => []
  | AskKey a :: t => a :: filter (fun x => negb (x =? a)) (asked_keys t)
  | _ :: t => asked_keys t
  end.
(** The reports asked for, in order, without repetitions. *)
Fixpoint asked_reports (h : list rm_op) : list report :=
  match h with
  | [] => []
  | AskId r :: t => r :: filter (fun x => negb (min_length x =? min_length r)) (asked_reports t)
  | _ :: t => asked_reports t
  end.
(** After history [h] there is no number left for the request [o]: ids and keys are u32,
    and a key request counts the keys before looking for its own. *)
Definition no_number (limit : N) (h : list rm_op) (o : rm_op) : Prop :=
  match o with
  | AskId r => 2 ^ 32 < limit /\ ~ In r (asked_reports h) /\ 2 ^ 32 <= N.of_nat (List.length (asked_reports h))
  | Register _ _ => False
  | AskKey _ => 2 ^ 32 <= N.of_nat (List.length (asked_keys h))
  end.
