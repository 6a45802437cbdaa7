(** The interpreter of the fragment of Rust read by [ModelRust]. *)
From Verif Require Import Base ModelRust.
Local Open Scope string_scope.
Local Open Scope N_scope.
Local Open Scope list_scope.
Local Notation "a =s b" := (String.eqb a b) (at level 70).

(** ** Values *)
Inductive width := U8 | U16 | U32 | U64 | Usize.
Inductive val :=
| VInt (w : width) (n : N)
| VLit (n : N)                    (* an integer whose type the context decides *)
| VBool (b : bool)
| VChar (c : N)
| VStr (s : str)
| VTuple (l : list val)
| VList (l : list val)            (* arrays, slices, vectors, and iterators over them *)
| VStruct (x : string) (fs : list (string * val))
| VCtor (x : string) (l : list val)
| VRange (incl : bool) (lo hi : val)
| VBorrowed.                      (* what may not be looked at while it is borrowed *)
Definition VUnit := VTuple [].

Definition width_eqb (a b : width) : bool :=
  match a, b with U8, U8 | U16, U16 | U32, U32 | U64, U64 | Usize, Usize => true | _, _ => false end.
Definition bits (p : profile) (w : width) : N :=
  match w with U8 => 8 | U16 => 16 | U32 => 32 | U64 => 64 | Usize => usize_bits p end.
Definition width_name (w : width) : string :=
  match w with U8 => "u8" | U16 => "u16" | U32 => "u32" | U64 => "u64" | Usize => "usize" end.
(** does every value of the first type fit the second, on every target? *)
Definition widens (a b : width) : bool :=
  match a, b with
  | U8, _ => true
  | U16, U8 => false | U16, _ => true
  | U32, (U32 | U64 | Usize) => true | U32, _ => false
  | U64, U64 => true | U64, _ => false
  | Usize, (U64 | Usize) => true | Usize, _ => false
  end.
Definition width_of (x : string) : option width :=
  if x =s "u8" then Some U8 else if x =s "u16" then Some U16 else if x =s "u32" then Some U32
  else if x =s "u64" then Some U64 else if x =s "usize" then Some Usize else None.

(** derived [PartialEq] *)
Fixpoint val_eqb (a b : val) {struct a} : bool :=
  let all := fix all (l m : list val) {struct l} : bool :=
    match l, m with
    | [], [] => true
    | x :: l', y :: m' => val_eqb x y && all l' m'
    | _, _ => false
    end in
  match a, b with
  | VInt _ x, VInt _ y => x =? y
  | VBool x, VBool y => Bool.eqb x y
  | VChar x, VChar y => x =? y
  | VStr x, VStr y => str_eqb x y
  | VTuple l, VTuple m => all l m
  | VList l, VList m => all l m
  | VCtor x l, VCtor y m => (x =s y) && all l m
  | VStruct x l, VStruct y m =>
    (fix go (l m : list (string * val)) {struct l} : bool :=
       match l, m with
       | [], [] => true
       | (_, v) :: l', (_, w) :: m' => val_eqb v w && go l' m'
       | _, _ => false
       end) l m
  | _, _ => false
  end.

(** ** Results: a value, or a jump; [None] is an interpreter that does not know what to do *)
Definition env := list (string * val).
Inductive flow := FVal (v : val) | FRet (v : val) | FBrk | FCont.
Definition M := outcome (option (flow * env)).
Definition stuck : M := Ret None.
Definition val_ (v : val) (s : env) : M := Ret (Some (FVal v, s)).
Definition bindv (m : M) (k : val -> env -> M) : M :=
  bind m (fun o => match o with Some (FVal v, s) => k v s | x => Ret x end).

(** ** Operators *)
Definition arith (p : profile) (o : bop) (w : width) (a b : N) : outcome (option val) :=
  match o with
  | BAdd => let! n := chk_add p (bits p w) a b in Ret (Some (VInt w n))
  | BSub => let! n := chk_sub p (bits p w) a b in Ret (Some (VInt w n))
  | BMul => let! n := chk_mul p (bits p w) a b in Ret (Some (VInt w n))
  | BDiv => if b =? 0 then Ret None else Ret (Some (VInt w (a / b)))
  | BRem => if b =? 0 then Ret None else Ret (Some (VInt w (a mod b)))
  | BAnd => Ret (Some (VInt w (N.land a b)))
  | BOr => Ret (Some (VInt w (N.lor a b)))
  | BXor => Ret (Some (VInt w (N.lxor a b)))
  | BEq => Ret (Some (VBool (a =? b)))
  | BNe => Ret (Some (VBool (negb (a =? b))))
  | BLt => Ret (Some (VBool (a <? b)))
  | BLe => Ret (Some (VBool (a <=? b)))
  | BGt => Ret (Some (VBool (b <? a)))
  | BGe => Ret (Some (VBool (b <=? a)))
  | BShl | BShr | BLand | BLor => Ret None
  end.
Definition shift (p : profile) (o : bop) (w : width) (a b : N) : outcome (option val) :=
  match o with
  | BShl => let! n := chk_shl p (bits p w) a b in Ret (Some (VInt w n))
  | _ => Ret None
  end.
Definition is_shift (o : bop) : bool := match o with BShl | BShr => true | _ => false end.
(** operands of builtin types *)
Definition binop (p : profile) (o : bop) (x y : val) : outcome (option val) :=
  match x, y with
  | VInt w a, VInt w' b =>
    if is_shift o then shift p o w a b
    else if width_eqb w w' then arith p o w a b else Ret None
  | VInt w a, VLit b => if is_shift o then shift p o w a b else arith p o w a b
  | VLit a, VInt w b => if is_shift o then Ret None else arith p o w a b
  | VLit _, VLit _ => Ret None
  | VChar a, VChar b =>
    match o with
    | BEq | BNe | BLt | BLe | BGt | BGe => arith p o U32 a b
    | _ => Ret None
    end
  | VStr a, VStr b =>
    match o with
    | BAdd => Ret (Some (VStr (a ++ b)))
    | BEq => Ret (Some (VBool (val_eqb x y)))
    | BNe => Ret (Some (VBool (negb (val_eqb x y))))
    | _ => Ret None
    end
  | VBool a, VBool b =>
    match o with
    | BEq => Ret (Some (VBool (Bool.eqb a b)))
    | BNe => Ret (Some (VBool (negb (Bool.eqb a b))))
    | BAnd => Ret (Some (VBool (a && b)))
    | BOr => Ret (Some (VBool (a || b)))
    | BXor => Ret (Some (VBool (xorb a b)))
    | _ => Ret None
    end
  | _, _ =>
    match o with
    | BEq => Ret (Some (VBool (val_eqb x y)))
    | BNe => Ret (Some (VBool (negb (val_eqb x y))))
    | _ => Ret None
    end
  end.
(** the method of the trait of an overloaded operator *)
Definition op_method (o : bop) : option string :=
  match o with
  | BAnd => Some "bitand" | BOr => Some "bitor" | BXor => Some "bitxor"
  | BAdd => Some "add" | BSub => Some "sub" | BMul => Some "mul"
  | _ => None
  end.
Definition cast_val (p : profile) (x : val) (t : ty) : option val :=
  match t with
  | TyName [n] [] =>
    match width_of n with
    | Some w =>
      match x with
      | VInt w' a => Some (VInt w (if widens w' w then a else cast (bits p w) a))
      | VLit a => Some (VInt w a)
      | VChar c => Some (VInt w (match w with U32 | U64 | Usize => c | _ => cast (bits p w) c end))
      | _ => None
      end
    | None => match x with VInt U8 a => if n =s "char" then Some (VChar a) else None | _ => None end
    end
  | _ => None
  end.

(** ** The program *)
Record program := Program { pr_fns : list fndef; pr_structs : list (string * list (string * ty)) }.

(** the declared type of a [const] or a [let] decides the literals under unary and arithmetic
    operators *)
Fixpoint ascribe (w : string) (e : expr) : expr :=
  match e with
  | ENum n s => if s =s "" then ENum n w else e
  | EUn UNot x => EUn UNot (ascribe w x)
  | EBin o a b =>
    match o with
    | BAdd | BSub | BMul | BDiv | BRem | BAnd | BOr | BXor => EBin o (ascribe w a) (ascribe w b)
    | BShl | BShr => EBin o (ascribe w a) b
    | _ => e
    end
  | _ => e
  end.
Definition ascribe_ty (t : ty) (e : expr) : expr :=
  match t with TyName [x] [] => match width_of x with Some _ => ascribe x e | None => e end | _ => e end.
(** Types the compiler infers from later uses: (function, variable, type). *)
Definition hints := list (string * string * string).
Definition hint_stmt (h : hints) (f : string) (b : stmt) : stmt :=
  match b with
  | SLet (PVar x) None o =>
    match find (fun y => (fst (fst y) =s f) && (snd (fst y) =s x)) h with
    | Some (_, _, w) => SLet (PVar x) (Some (TyName [w] [])) o
    | None => b
    end
  | _ => b
  end.
(** In [x[i] op= e] the literals of [e] have the type of the elements of the slice [x], a
    parameter. *)
Definition element (ps : list (string * ty)) (x : string) : option string :=
  match find (fun y => fst y =s x) ps with
  | Some (_, TyRef _ (TySlice (TyName [w] []))) => match width_of w with Some _ => Some w | None => None end
  | _ => None
  end.
Fixpoint element_expr (ps : list (string * ty)) (e : expr) : expr :=
  match e with
  | EAssign (Some o) (EIndex (EPath [x]) i) r =>
    match element ps x with Some w => EAssign (Some o) (EIndex (EPath [x]) i) (ascribe w r) | None => e end
  | EIf c t None => EIf c (map (element_stmt ps) t) None
  | EIf c t (Some u) => EIf c (map (element_stmt ps) t) (Some (map (element_stmt ps) u))
  | EWhile c b => EWhile c (map (element_stmt ps) b)
  | EWhileLet q c b => EWhileLet q c (map (element_stmt ps) b)
  | ELoop b => ELoop (map (element_stmt ps) b)
  | EFor q c b => EFor q c (map (element_stmt ps) b)
  | EBlock b => EBlock (map (element_stmt ps) b)
  | _ => e
  end
with element_stmt (ps : list (string * ty)) (b : stmt) : stmt :=
  match b with
  | SLet _ _ _ | SBorrow _ _ | SRef _ _ | SRefIf _ _ _ _ | SRefEntry _ _ _ _ => b
  | SExpr e => SExpr (element_expr ps e)
  | SLast e => SLast (element_expr ps e)
  end.
(** A constant is a function without parameters. *)
Fixpoint collect (h : hints) (l : list item) : program :=
  match l with
  | [] => Program [] []
  | x :: t =>
    let r := collect h t in
    match x with
    | IFn f => Program (Fn (fn_owner f) (fn_name f) (fn_params f) (fn_ret f) (map (fun b => element_stmt (fn_params f) (hint_stmt h (fn_name f) b)) (fn_body f)) :: pr_fns r) (pr_structs r)
    | IConst _ n y e => Program (Fn None n [] y [SLast (ascribe_ty y e)] :: pr_fns r) (pr_structs r)
    | IStruct n fs => Program (pr_fns r) ((n, fs) :: pr_structs r)
    | IAlias _ _ _ | INone => r
    end
  end.
(** *** Names of types and what the compiler infers *)
(** rewrite every part of an expression, the innermost first *)
Fixpoint every (f : expr -> expr) (h : stmt -> stmt) (e : expr) {struct e} : expr :=
  f match e with
    | EField x n => EField (every f h x) n
    | EIndex x i => EIndex (every f h x) (every f h i)
    | ECall q l => ECall q (map (every f h) l)
    | EApply x l => EApply (every f h x) (map (every f h) l)
    | EMap x q b => EMap (every f h x) q (every f h b)
    | EMethod x m l => EMethod (every f h x) m (map (every f h) l)
    | EMacro m l => EMacro m (map (every f h) l)
    | EUn o x => EUn o (every f h x)
    | EBin o x y => EBin o (every f h x) (every f h y)
    | EAssign o x y => EAssign o (every f h x) (every f h y)
    | ECast x t => ECast (every f h x) t
    | ERange i a b => ERange i (match a with Some x => Some (every f h x) | None => None end) (match b with Some x => Some (every f h x) | None => None end)
    | EIf c t u => EIf (every f h c) (map (every_stmt f h) t) (match u with Some l => Some (map (every_stmt f h) l) | None => None end)
    | EIfLet q c t u => EIfLet q (every f h c) (map (every_stmt f h) t) (match u with Some l => Some (map (every_stmt f h) l) | None => None end)
    | EMatch x l => EMatch (every f h x) (map (fun a => match a with (qs, c, r) => (qs, match c with Some y => Some (every f h y) | None => None end, every f h r) end) l)
    | EWhile c b => EWhile (every f h c) (map (every_stmt f h) b)
    | EWhileLet q c b => EWhileLet q (every f h c) (map (every_stmt f h) b)
    | ELoop b => ELoop (map (every_stmt f h) b)
    | EFor q c b => EFor q (every f h c) (map (every_stmt f h) b)
    | EBlock b => EBlock (map (every_stmt f h) b)
    | EReturn (Some x) => EReturn (Some (every f h x))
    | ETry x => ETry (every f h x)
    | ETuple l => ETuple (map (every f h) l)
    | EArray l => EArray (map (every f h) l)
    | EStruct q l => EStruct q (map (fun a => match a with (n, x) => (n, every f h x) end) l)
    | EUpdate q l x => EUpdate q (map (fun a => match a with (n, x) => (n, every f h x) end) l) (every f h x)
    | EClosure ps b => EClosure ps (every f h b)
    | EWith x m l ps b => EWith (every f h x) m (map (every f h) l) ps (every f h b)
    | EMatches x qs => EMatches (every f h x) qs
    | EEntry m k x a y b => EEntry (every f h m) (every f h k) x (every f h a) y (every f h b)
    | EOrInsert m k v => EOrInsert (every f h m) (every f h k) (every f h v)
    | ETryInto x t => ETryInto (every f h x) t
    | _ => e
    end
with every_stmt (f : expr -> expr) (h : stmt -> stmt) (b : stmt) {struct b} : stmt :=
  h match b with
    | SLet q t (Some x) => SLet q t (Some (every f h x))
    | SLet q t None => b
    | SBorrow x e => SBorrow x (every f h e)
    | SRef x e => SRef x (every f h e)
    | SRefIf x c y z => SRefIf x (every f h c) (every f h y) (every f h z)
    | SRefEntry x m k e => SRefEntry x (every f h m) (every f h k) (every f h e)
    | SExpr x => SExpr (every f h x)
    | SLast x => SLast (every f h x)
    end.
(** [type] declarations: (the [impl] it is in, name, the type) *)
Definition alias_list := list (option string * string * string).
Fixpoint aliases (l : list item) : alias_list :=
  match l with [] => [] | IAlias o x y :: t => (o, x, y) :: aliases t | _ :: t => aliases t end.
Definition owner_eqb (a b : option string) : bool :=
  match a, b with Some x, Some y => x =s y | None, None => true | _, _ => false end.
Definition alias (al : alias_list) (o : option string) (x : string) : string :=
  match find (fun a => owner_eqb (fst (fst a)) o && (snd (fst a) =s x)) al with Some (_, y) => y | None => x end.
(** a name may stand for a name; three times is enough *)
Definition unalias (al : alias_list) (x : string) : string := alias al None (alias al None (alias al None x)).
Fixpoint unalias_ty (al : alias_list) (t : ty) : ty :=
  match t with
  | TyName [x] l => TyName [unalias al x] (map (unalias_ty al) l)
  | TyName q l => TyName q (map (unalias_ty al) l)
  | TyRef m t' => TyRef m (unalias_ty al t')
  | TySlice t' => TySlice (unalias_ty al t')
  | _ => t
  end.
Definition unalias_expr (al : alias_list) (o : option string) (e : expr) : expr :=
  match e with
  | ECall [t; f] l => ECall [unalias al t; f] l
  | EStruct [t; x] l => if t =s "Self" then EStruct [alias al o x] l else if t =s "super" then EStruct [x] l else e
  | _ => e
  end.
(** [From<T>] of a type that has another name *)
Definition unalias_fn (al : alias_list) (x : string) : string :=
  match find (fun a => x =s ("from<" ++ snd (fst a) ++ ">")%string) al with
  | Some (_, t, _) => ("from<" ++ unalias al t ++ ">")%string
  | None => x
  end.
(** The target of a [try_into]: (function, method applied to the result, type). *)
Definition tried (h : hints) (f m : string) : option string :=
  match find (fun y => (fst (fst y) =s f) && (snd (fst y) =s m)) h with Some (_, t) => Some t | None => None end.
Definition target_expr (h : hints) (f : string) (e : expr) : expr :=
  match e with
  | EMethod (EMethod x n []) m l => if n =s "try_into" then match tried h f m with Some t => EMethod (ETryInto x t) m l | None => e end else e
  | EWith (EMethod x n []) m l ps b => if n =s "try_into" then match tried h f m with Some t => EWith (ETryInto x t) m l ps b | None => e end else e
  | _ => e
  end.
(** the literals of [&[..]] have the type of the elements of the parameter *)
Definition slice_arg (t : ty) (e : expr) : expr :=
  match t, e with
  | TyRef _ (TySlice t'), EUn URef (EArray l) => EUn URef (EArray (map (ascribe_ty t') l))
  | _, _ => e
  end.
Fixpoint slice_args (ps : list (string * ty)) (l : list expr) : list expr :=
  match ps, l with (_, t) :: ps', e :: l' => slice_arg t e :: slice_args ps' l' | _, _ => l end.
Definition slice_expr (fns : list fndef) (e : expr) : expr :=
  match e with
  | ECall [f] l =>
    match find (fun d => owner_eqb (fn_owner d) None && (fn_name d =s f)) fns with
    | Some d => ECall [f] (slice_args (fn_params d) l)
    | None => e
    end
  | _ => e
  end.
(** [let x = e.m();] where [m] gives [&mut self.f] *)
Definition borrower (fns : list fndef) (m : string) : option string :=
  match find (fun d => (fn_name d =s m) && match fn_ret d with TyRef true _ => true | _ => false end) fns with
  | Some d => match fn_body d with [SLast (EField (EPath _) f)] => Some f | _ => None end
  | None => None
  end.
Definition borrow_stmt (fns : list fndef) (b : stmt) : stmt :=
  match b with
  | SLet (PVar x) None (Some (EMethod e m [])) => match borrower fns m with Some f => SRef x (EField e f) | None => b end
  | _ => b
  end.
(** [e.m().n(..)] likewise *)
Definition borrow_expr (fns : list fndef) (e : expr) : expr :=
  match e with
  | EMethod (EMethod x m []) n l => match borrower fns m with Some f => EMethod (EField x f) n l | None => e end
  | _ => e
  end.
(** Loans: (function, the variable [x] lent, the variable [h] whose field [f] holds the loan).  The
    loan ends where the body's last expression uses [x], or after it. *)
Definition loans := list (string * string * (string * string)).
Fixpoint repaid (x h f : string) (b : list stmt) : list stmt :=
  let back := SExpr (EAssign None (EPath [x]) (EField (EPath [h]) f)) in
  match b with
  | [SLast e] =>
    match e with
    | EMethod (EPath [y]) _ _ => if y =s x then [back; SLast e] else [SLet (PVar "<result>") None (Some e); back; SLast (EPath ["<result>"])]
    | _ => [SLet (PVar "<result>") None (Some e); back; SLast (EPath ["<result>"])]
    end
  | y :: t => y :: repaid x h f t
  | [] => []
  end.
Definition repay (ln : loans) (f : string) (b : list stmt) : list stmt :=
  match find (fun l => fst (fst l) =s f) ln with Some (_, x, (h, c)) => repaid x h c b | None => b end.
Definition linked (h : hints) (ln : loans) (al : alias_list) (g : program) : program :=
  Program (map (fun d =>
    let fx e := borrow_expr (pr_fns g) (slice_expr (map (fun d => Fn (fn_owner d) (fn_name d) (map (fun y => (fst y, unalias_ty al (snd y))) (fn_params d)) (fn_ret d) []) (pr_fns g)) (target_expr h (fn_name d) (unalias_expr al (fn_owner d) e))) in
    Fn (fn_owner d) (unalias_fn al (fn_name d)) (map (fun y => (fst y, unalias_ty al (snd y))) (fn_params d)) (unalias_ty al (fn_ret d))
       (repay ln (fn_name d) (map (every_stmt fx (borrow_stmt (pr_fns g))) (fn_body d)))) (pr_fns g))
    (map (fun d => (fst d, map (fun y => (fst y, unalias_ty al (snd y))) (snd d))) (pr_structs g)).
(** In [x.f = Some(n)] and in a struct literal the field declared gives the literal its type. *)
Definition field_width (l : list (string * list (string * ty))) (f : string) : option ty :=
  match find (fun d => existsb (fun y => fst y =s f) (snd d)) l with
  | Some (_, fs) => match find (fun y => fst y =s f) fs with Some (_, t) => Some t | None => None end
  | None => None
  end.
Definition typed_field (l : list (string * list (string * ty))) (x : string * expr) : string * expr :=
  match field_width l (fst x) with Some t => (fst x, ascribe_ty t (snd x)) | None => x end.
Definition typed_expr (l : list (string * list (string * ty))) (e : expr) : expr :=
  match e with
  | EAssign None (EField x f) (ECall [c] [ENum n s]) =>
    match field_width l f with
    | Some (TyName [o] [TyName [w] []]) => if (o =s "Option") && (c =s "Some") && (s =s "") then EAssign None (EField x f) (ECall [c] [ENum n w]) else e
    | _ => e
    end
  | EStruct p fs => EStruct p (map (typed_field l) fs)
  | _ => e
  end.
Definition typed_stmt (l : list (string * list (string * ty))) (b : stmt) : stmt :=
  match b with
  | SExpr e => SExpr (typed_expr l e)
  | SLast e => SLast (typed_expr l e)
  | _ => b
  end.
Definition typed (g : program) : program :=
  Program (map (fun f => Fn (fn_owner f) (fn_name f) (fn_params f) (fn_ret f) (map (typed_stmt (pr_structs g)) (fn_body f))) (pr_fns g)) (pr_structs g).
Definition find_fn (g : program) (o : option string) (f : string) : option fndef :=
  find (fun d => owner_eqb (fn_owner d) o && (fn_name d =s f)) (pr_fns g).
(** the [From] of the program that takes a type of the program: the type [into] makes of it *)
Definition find_from (g : program) (t : string) : option string :=
  match find (fun d => fn_name d =s ("from<" ++ t ++ ">")%string) (pr_fns g) with Some d => fn_owner d | None => None end.
(** the type of a value of an [enum] of the program, whose constructors are paths *)
Fixpoint before_colons (s : string) : option string :=
  match s with
  | String a t =>
    match t with
    | String b _ => if Ascii.eqb a ":" && Ascii.eqb b ":" then Some "" else
                    match before_colons t with Some r => Some (String a r) | None => None end
    | EmptyString => None
    end
  | EmptyString => None
  end.
Definition type_name (v : val) : option string :=
  match v with
  | VStruct t _ => Some t
  | VCtor c _ => before_colons c
  | _ => None
  end.

(** A literal is given the type its position declares; [T], a generic parameter, leaves it. *)
Fixpoint coerce (t : ty) (v : val) : val :=
  match t with
  | TyRef _ t' => coerce t' v
  | TyName [x] [] => match v with VLit n => match width_of x with Some w => VInt w n | None => v end | _ => v end
  | TyName [_] (t' :: _) =>
    match v with VCtor c [u] => if (c =s "Some") || (c =s "Ok") then VCtor c [coerce t' u] else v | _ => v end
  | _ => v
  end.

(** A literal assigned takes the type of what it replaces. *)
Definition adopt (old v : val) : val :=
  match v, old with VLit n, VInt w _ => VInt w n | _, _ => v end.

(** ** Names and places *)
Fixpoint lookup (x : string) (s : env) : option val :=
  match s with
  | [] => None
  | (y, v) :: t => if x =s y then Some v else lookup x t
  end.
Fixpoint assign (x : string) (v : val) (s : env) : option env :=
  match s with
  | [] => None
  | (y, u) :: t =>
    if x =s y then Some ((y, v) :: t)
    else match assign x v t with Some t' => Some ((y, u) :: t') | None => None end
  end.
(** leave a scope: keep the innermost [n] bindings of [s] out *)
Definition leave (outer s : env) : env := skipn (List.length s - List.length outer) s.

Fixpoint get_path (v : val) (fs : list string) : option val :=
  match fs with
  | [] => Some v
  | f :: t => match v with
              | VStruct _ l => match lookup f l with Some u => get_path u t | None => None end
              | _ => None
              end
  end.
Fixpoint set_path (v : val) (fs : list string) (u : val) : option val :=
  match fs with
  | [] => Some u
  | f :: t =>
    match v with
    | VStruct x l =>
      match lookup f l with
      | Some w => match set_path w t u with
                  | Some w' => match assign f w' l with Some l' => Some (VStruct x l') | None => None end
                  | None => None
                  end
      | None => None
      end
    | _ => None
    end
  end.
(** a variable and fields of it *)
Fixpoint place (e : expr) : option (string * list string) :=
  match e with
  | EPath [x] => Some (x, [])
  | EField e' f => match place e' with Some (x, fs) => Some (x, fs ++ [f]) | None => None end
  | EUn (URef | URefMut | UDeref) e' => place e'
  (* a pinned or boxed place *)
  | EMethod e' m [] => if (m =s "as_mut") || (m =s "get_unchecked_mut") then place e' else None
  | ECall [t; m] [e'] => if (t =s "Pin") && ((m =s "as_mut") || (m =s "get_unchecked_mut")) then place e' else None
  | _ => None
  end.
(** fields of the element of a place that a variable is the index of *)
Fixpoint elem_place (e : expr) : option ((string * list string) * string * list string) :=
  match e with
  | EIndex b (EPath [i]) => match place b with Some pl => Some (pl, i, []) | None => None end
  | EField e' f => match elem_place e' with Some (b, i, fs) => Some (b, i, fs ++ [f]) | None => None end
  | EUn (URef | URefMut | UDeref) e' => elem_place e'
  | _ => None
  end.
Definition read_place (pl : string * list string) (s : env) : option val :=
  match lookup (fst pl) s with Some v => get_path v (snd pl) | None => None end.
Definition write_place (pl : string * list string) (u : val) (s : env) : option env :=
  match lookup (fst pl) s with
  | Some v => match set_path v (snd pl) u with Some v' => assign (fst pl) v' s | None => None end
  | None => None
  end.

(** ** Patterns *)
Definition path_name (l : list string) : string := String.concat "::" l.
(** in a pattern [Self::C] is the constructor [C] of the type matched *)
Fixpoint after_colons (s : string) : string :=
  match s with
  | String a t =>
    match t with
    | String b r => if Ascii.eqb a ":" && Ascii.eqb b ":" then r else after_colons t
    | EmptyString => ""
    end
  | EmptyString => ""
  end.
Definition is_ctor (x : list string) (y : string) : bool :=
  match x with
  | [t; c] => if t =s "Self" then c =s after_colons y else path_name x =s y
  | _ => path_name x =s y
  end.
Fixpoint pmatch (p : pat) (v : val) (s : env) {struct p} : option env :=
  let all := fix all (ps : list pat) (vs : list val) (s : env) {struct ps} : option env :=
    match ps, vs with
    | [], [] => Some s
    | q :: ps', u :: vs' => match pmatch q u s with Some s' => all ps' vs' s' | None => None end
    | _, _ => None
    end in
  match p with
  | PWild => Some s
  | PVar x => Some ((x, v) :: s)
  | PTuple ps => match v with VTuple vs => all ps vs s | _ => None end
  | PCtor x ps => match v with VCtor y vs => if is_ctor x y then all ps vs s else None | _ => None end
  | PNum n => match v with VInt _ m => if n =? m then Some s else None | _ => None end
  | PCharacter n => match v with VChar m => if n =? m then Some s else None | _ => None end
  | PText t => match v with VStr u => if str_eqb u t then Some s else None | _ => None end
  end.
(** What became of a value that was matched: the variables of the pattern are references into
    it, or copies that have not changed (none is [mut]). *)
Fixpoint rebuilt (p : pat) (v : val) (s : env) {struct p} : val :=
  let all := fix all (ps : list pat) (vs : list val) {struct ps} : list val :=
    match ps, vs with
    | q :: ps', u :: vs' => rebuilt q u s :: all ps' vs'
    | _, _ => vs
    end in
  match p, v with
  | PVar x, _ => match lookup x s with Some u => u | None => v end
  | PTuple ps, VTuple vs => VTuple (all ps vs)
  | PCtor _ ps, VCtor y vs => VCtor y (all ps vs)
  | _, _ => v
  end.

(** ** Builtin functions and methods *)
Definition none_ : val := VCtor "None" [].
Definition some_ (v : val) : val := VCtor "Some" [v].
Definition ok_ (v : val) : val := VCtor "Ok" [v].

Fixpoint enumerate_from (i : N) (l : list val) : list val :=
  match l with [] => [] | v :: t => VTuple [VInt Usize i; v] :: enumerate_from (i + 1) t end.
(** the values of an integer range *)
Definition range_items (incl : bool) (lo hi : val) : option (list val) :=
  let go (w : width) (a b : N) :=
    Some (map (VInt w) (seqN a (N.to_nat (if incl then b + 1 - a else b - a)))) in
  match lo, hi with
  | VInt w a, VInt w' b => if width_eqb w w' then go w a b else None
  | VInt w a, VLit b => go w a b
  | VLit a, VInt w b => go w a b
  | _, _ => None
  end.
Definition items_of (v : val) : option (list val) :=
  match v with
  | VList l => Some l
  | VRange incl lo hi => range_items incl lo hi
  | _ => None
  end.

(** nom's complete parsers of [&str]: the rest of the input and what was read; [None] is an error *)
Fixpoint strip_prefix (t s : str) : option str :=
  match t, s with
  | [], _ => Some s
  | x :: t', y :: s' => if x =? y then strip_prefix t' s' else None
  | _ :: _, [] => None
  end.
Fixpoint until (set s : str) : str * str :=
  match s with
  | [] => ([], [])
  | x :: s' => if existsb (N.eqb x) set then ([], s) else let (a, b) := until set s' in (x :: a, b)
  end.
Definition nom (x : string) : bool :=
  (x =s "char") || (x =s "tag") || (x =s "is_not") || (x =s "take") || (x =s "delimited").
Fixpoint parser (v : val) (s : str) : option (option (str * val)) :=
  match v with
  | VCtor x l =>
    match l with
    | [VChar c] =>
      if x =s "char" then Some (match s with y :: r => if y =? c then Some (r, VChar c) else None | [] => None end) else None
    | [VStr t] =>
      if x =s "tag" then Some (match strip_prefix t s with Some r => Some (r, VStr t) | None => None end)
      else if x =s "is_not" then Some (match until t s with ([], _) => None | (a, b) => Some (b, VStr a) end)
      else None
    | [VInt Usize n] =>
      if x =s "take" then Some (if N.of_nat (List.length s) <? n then None else Some (skipn (N.to_nat n) s, VStr (firstn (N.to_nat n) s))) else None
    | [a; b; c] =>
      if x =s "delimited" then
        match parser a s with
        | Some (Some (s1, _)) =>
          match parser b s1 with
          | Some (Some (s2, v)) =>
            match parser c s2 with
            | Some (Some (s3, _)) => Some (Some (s3, v))
            | r => r
            end
          | r => r
          end
        | r => r
        end
      else None
    | _ => None
    end
  | _ => None
  end.

(** formatting: the pieces of a format string *)
Definition show_val (v : val) : option str :=
  match v with
  | VInt _ n => Some (show n)
  | VStr s => Some s
  | VChar c => Some [c]
  | _ => None
  end.
Fixpoint format_ (fuel : nat) (f : str) (args : list val) : option str :=
  match fuel with
  | O => None
  | S k =>
    match f with
    | [] => match args with [] => Some [] | _ => None end
    | c :: t =>
      if c =? 123 then
        match t, args with
        | 123 :: t', _ => match format_ k t' args with Some r => Some (123 :: r) | None => None end
        | 125 :: t', a :: args' =>
          match show_val a, format_ k t' args' with Some x, Some r => Some (x ++ r) | _, _ => None end
        | 58 :: 50 :: 120 :: 125 :: t', VInt _ n :: args' =>
          match format_ k t' args' with Some r => Some (show_hex2 n ++ r) | None => None end
        | _, _ => None
        end
      else match format_ k t args with Some r => Some (c :: r) | None => None end
    end
  end.

(** sets and maps: the elements, and the pairs, in the order they came *)
Fixpoint map_get (k : val) (l : list val) : option val :=
  match l with
  | VTuple [a; b] :: t => if val_eqb a k then Some b else map_get k t
  | _ => None
  end.
Fixpoint map_set (k v : val) (l : list val) : list val :=
  match l with
  | VTuple [a; b] :: t => if val_eqb a k then VTuple [a; v] :: t else VTuple [a; b] :: map_set k v t
  | _ => [VTuple [k; v]]
  end.
Definition set_add (l : list val) (x : val) : list val := if existsb (val_eqb x) l then l else l ++ [x].
Definition opt_ (o : option val) : val := match o with Some v => some_ v | None => none_ end.
Definition ordering (c : comparison) : val := VCtor (match c with Lt => "Ordering::Less" | Eq => "Ordering::Equal" | Gt => "Ordering::Greater" end) [].
Definition bool_compare (a b : bool) : comparison := match a, b with false, true => Lt | true, false => Gt | _, _ => Eq end.
(** [Ord] of slices of integers or of bits *)
Fixpoint compare_lists (l m : list val) : option comparison :=
  match l, m with
  | [], [] => Some Eq
  | [], _ :: _ => Some Lt
  | _ :: _, [] => Some Gt
  | x :: l', y :: m' =>
    match x, y with
    | VInt _ a, VInt _ b => match N.compare a b with Eq => compare_lists l' m' | c => Some c end
    | VBool a, VBool b => match bool_compare a b with Eq => compare_lists l' m' | c => Some c end
    | _, _ => None
    end
  end.
(** *** petgraph's [Graph]: a list of weights, and the edges in the order they were added *)
Definition graph_ (ns es : list val) : val := VStruct "Graph" [("nodes", VList ns); ("edges", VList es)].
Definition ix_ (n : N) : val := VCtor "NodeIndex::Ix" [VInt U32 n].
Definition edge_ends (e : val) : N * N := match e with VTuple [VInt _ a; VInt _ b] => (a, b) | _ => (0, 0) end.
(** the neighbours, those of the edge added last first *)
Definition neighbours (out : bool) (v : N) (es : list val) : list val :=
  rev (flat_map (fun e => let (a, b) := edge_ends e in if out then (if a =? v then [ix_ b] else []) else (if b =? v then [ix_ a] else [])) es).
Definition graph_method (m : string) (self : val) (vs : list val) : outcome (option (val * val)) :=
  match self with
  | VStruct _ [(_, VList ns); (_, VList es)] =>
    let ret v := Ret (Some (v, self)) in
    if m =s "add_node" then
      match vs with
      | [w] => if N.of_nat (List.length ns) =? 2 ^ 32 - 1 then Panic PCapacity else Ret (Some (ix_ (N.of_nat (List.length ns)), graph_ (ns ++ [w]) es))
      | _ => Ret None
      end
    else if m =s "add_edge" then
      match vs with
      | [VCtor _ [VInt _ a]; VCtor _ [VInt _ b]; _] =>
        if N.of_nat (List.length es) =? 2 ^ 32 - 1 then Panic PCapacity
        else if N.max a b <? N.of_nat (List.length ns) then Ret (Some (VCtor "EdgeIndex::Ix" [VInt U32 (N.of_nat (List.length es))], graph_ ns (es ++ [VTuple [VInt U32 a; VInt U32 b]])))
        else Panic PIndex
      | _ => Ret None
      end
    else if m =s "node_count" then match vs with [] => ret (VInt Usize (N.of_nat (List.length ns))) | _ => Ret None end
    else if m =s "node_indices" then match vs with [] => ret (VList (map ix_ (seqN 0 (List.length ns)))) | _ => Ret None end
    else if m =s "node_weight" then match vs with [VCtor _ [VInt _ a]] => ret (opt_ (nth_error ns (N.to_nat a))) | _ => Ret None end
    else if m =s "neighbors_directed" then
      match vs with
      | [VCtor _ [VInt _ a]; VCtor d []] =>
        if d =s "Direction::Outgoing" then ret (VList (neighbours true a es))
        else if d =s "Direction::Incoming" then ret (VList (neighbours false a es)) else Ret None
      | _ => Ret None
      end
    else if m =s "find_edge" then
      match vs with
      | [VCtor _ [VInt _ a]; VCtor _ [VInt _ b]] => ret (if existsb (fun e => let (x, y) := edge_ends e in (x =? a) && (y =? b)) es then some_ VUnit else none_)
      | _ => Ret None
      end
    else Ret None
  | _ => Ret None
  end.
(** methods that change their receiver *)
Definition mutating (m : string) (self : val) (args : list val) : option (val * val) :=
  if m =s "push" then
    match self, args with VList l, [x] => Some (VUnit, VList (l ++ [x])) | _, _ => None end
  else if m =s "pop" then
    match self, args with VList l, [] => match rev l with [] => Some (none_, self) | x :: r => Some (some_ x, VList (rev r)) end | _, _ => None end
  else if m =s "next" then
    match self, args with VList l, [] => match l with [] => Some (none_, self) | x :: r => Some (some_ x, VList r) end | _, _ => None end
  else if m =s "take" then
    match self, args with VCtor c l, [] => Some (self, none_) | _, _ => None end
  else if m =s "clear" then
    match self, args with VList l, [] => Some (VUnit, VList []) | _, _ => None end
  else if m =s "insert" then
    match self, args with
    | VCtor c l, [x] => if c =s "HashSet" then Some (VBool (negb (existsb (val_eqb x) l)), VCtor c (set_add l x)) else None
    | VCtor c l, [k; v] => if c =s "HashMap" then Some (opt_ (map_get k l), VCtor c (map_set k v l)) else None
    | _, _ => None
    end
  else if m =s "extend" then
    match self, args with
    | VCtor c l, [VCtor d l'] => if (c =s "HashSet") && (d =s "HashSet") then Some (VUnit, VCtor c (fold_left set_add l' l)) else None
    | _, _ => None
    end
  else None.
(** methods of builtin types: the result and what becomes of the receiver *)
Definition builtin (p : profile) (m : string) (self : val) (args : list val) : outcome (option (val * val)) :=
  let ret v := Ret (Some (v, self)) in
  if (m =s "iter") || (m =s "clone") then ret self
  else match self, args with
  | VInt w n, [] =>
    if m =s "into" then (match w with U8 => ret (VLit n) | _ => ret self end)
    else if m =s "count_ones" then (match w with U64 => ret (VInt U32 (count_ones64 n)) | _ => Ret None end)
    else if m =s "trailing_zeros" then (match w with U64 => ret (VInt U32 (trailing_zeros64 n)) | _ => Ret None end)
    else if m =s "leading_zeros" then (match w with U64 => ret (VInt U32 (leading_zeros64 n)) | _ => Ret None end)
    else Ret None
  | VInt w n, [x] =>
    if m =s "wrapping_add" then
      match x with VInt _ k | VLit k => ret (VInt w (wrapping_add (bits p w) n k)) | _ => Ret None end
    else if m =s "eq" then match x with VInt _ k => ret (VBool (n =? k)) | _ => Ret None end
    else if m =s "cmp" then match x with VInt _ k => ret (ordering (N.compare n k)) | _ => Ret None end
    else Ret None
  | VList l, [] =>
    if m =s "enumerate" then ret (VList (enumerate_from 0 l))
    else if m =s "rev" then ret (VList (rev l))
    else if m =s "len" then ret (VInt Usize (N.of_nat (List.length l)))
    else if m =s "is_empty" then ret (VBool (match l with [] => true | _ => false end))
    else if m =s "last" then ret (match rev l with [] => none_ | x :: _ => some_ x end)
    else if (m =s "to_vec") || (m =s "peekable") || (m =s "into_iter") then ret self
    else if m =s "peek" then ret (match l with [] => none_ | x :: _ => some_ x end)
    else if m =s "any" then ret (VBool (existsb (val_eqb (VBool true)) l))    (* of a [BitVec] *)
    else Ret None
  | VChar c, [] => if m =s "is_ascii" then ret (VBool (is_ascii_char c)) else Ret None
  | VList l, [x] =>
    if m =s "contains" then ret (VBool (existsb (val_eqb x) l))
    else if m =s "get" then (match x with VInt Usize n => ret (opt_ (nth_error l (N.to_nat n))) | _ => Ret None end)
    else if m =s "cmp" then (match x with VList l' => match compare_lists l l' with Some c => ret (ordering c) | None => Ret None end | _ => Ret None end)
    else Ret None
  | VRange incl lo hi, [x] =>
    if m =s "contains" then
      let! a := binop p BLe lo x in
      let! b := binop p (if incl then BLe else BLt) x hi in
      match a, b with Some (VBool c), Some (VBool d) => ret (VBool (c && d)) | _, _ => Ret None end
    else Ret None
  | VCtor c l, [] =>
    if m =s "is_none" then ret (VBool (c =s "None"))
    else if m =s "is_some" then ret (VBool (c =s "Some"))
    else if m =s "len" then (if (c =s "HashMap") || (c =s "HashSet") then ret (VInt Usize (N.of_nat (List.length l))) else Ret None)
    else if m =s "unwrap" then (match l with [v] => if (c =s "Some") || (c =s "Ok") then ret v else Panic PExpect | _ => Panic PExpect end)
    else Ret None
  | VCtor c l, [VStruct _ _ as k] => if (m =s "get") && (c =s "HashMap") then ret (opt_ (map_get k l)) else Ret None
  | VCtor c l, [VStr _] =>
    if m =s "expect" then (match l with [v] => if (c =s "Some") || (c =s "Ok") then ret v else Panic PExpect | _ => Panic PExpect end)
    else Ret None
  | VStr s, [] =>
    if m =s "len" then ret (VInt Usize (str_len s))
    else if m =s "is_empty" then ret (VBool (match s with [] => true | _ => false end))
    else if (m =s "into") || (m =s "to_string") then ret self
    else if m =s "chars" then ret (VList (map VChar s))
    else Ret None
  | VStr s, [x] =>
    (* a String as a writer never fails *)
    if m =s "repeat" then (match x with VInt Usize n => Ret (Some (VStr (List.concat (repeat s (N.to_nat n))), self)) | _ => Ret None end)
    else if m =s "write_str" then (match x with VStr t => Ret (Some (ok_ VUnit, VStr (s ++ t))) | _ => Ret None end)
    else if m =s "write_char" then
      (match x with VChar c | VLit c => Ret (Some (ok_ VUnit, VStr (s ++ [c]))) | _ => Ret None end)
    else if m =s "push_str" then (match x with VStr t => Ret (Some (VUnit, VStr (s ++ t))) | _ => Ret None end)
    else if m =s "starts_with" then (match x with VStr t => ret (VBool (starts_with t s)) | _ => Ret None end)
    else if m =s "push" then (match x with VChar c => Ret (Some (VUnit, VStr (s ++ [c]))) | _ => Ret None end)
    else Ret None
  | _, _ => Ret None
  end.

(** [Default], derived *)
Fixpoint default_ty (fuel : nat) (g : program) (t : ty) : option val :=
  match fuel with
  | O => None
  | S k =>
    match t with
    | TyName [x] _ =>
      match width_of x with
      | Some w => Some (VInt w 0)
      | None =>
        if x =s "bool" then Some (VBool false)
        else if x =s "Vec" then Some (VList [])
        else if x =s "Option" then Some none_
        else if x =s "String" then Some (VStr [])
        else if x =s "BitVec" then Some (VList [])
        else if x =s "HashSet" then Some (VCtor "HashSet" [])
        else if (x =s "HashMap") || (x =s "BTreeMap") then Some (VCtor "HashMap" [])
        else if x =s "Graph" then Some (graph_ [] [])
        else match find (fun d => fst d =s x) (pr_structs g) with
        | Some (_, fs) =>
          match (fix go (fs : list (string * ty)) : option (list (string * val)) :=
                   match fs with
                   | [] => Some []
                   | (f, y) :: r => match default_ty k g y, go r with Some v, Some vs => Some ((f, v) :: vs) | _, _ => None end
                   end) fs with
          | Some l => Some (VStruct x l)
          | None => None
          end
        | None => None
        end
      end
    | TyArray y n => match default_ty k g y with Some v => Some (VList (repeat v (N.to_nat n))) | None => None end
    | _ => None
    end
  end.

(** ** Expressions *)
(** a loop that is running *)
Inductive work :=
| WWhile (c : expr) (b : list stmt)
| WWhileLet (q : pat) (c : expr) (b : list stmt)
| WLoop (b : list stmt)
| WFor (q : pat) (items : list val) (b : list stmt)
| WForIter (q : pat) (it : val) (b : list stmt)    (* [it] has a [next] in the text *)
(* [x] is the element [i], then those up to [j], of the place [pl] *)
| WForMut (x : string) (pl : string * list string) (i j : N) (b : list stmt).

Section Eval.
  Context (p : profile) (g : program) (own : option string).
  (** what a call gives: its value and what became of its arguments *)
  Context (callf : option string -> string -> list val -> outcome (option (val * list val))).
  Context (loopf : work -> env -> M).

  Definition self_name (x : string) : string :=
    if x =s "Self" then match own with Some o => o | None => x end else x.
  Definition resolve (path : list string) : option string * string :=
    match path with
    | [f] => (None, f)
    | [t; f] => (Some (self_name t), f)
    | _ => (None, "")
    end.
  Fixpoint nthN (l : list val) (n : N) : option val :=
    match l with [] => None | x :: t => if n =? 0 then Some x else nthN t (N.pred n) end.
  Fixpoint updN (l : list val) (n : N) (u : val) : option (list val) :=
    match l with
    | [] => None
    | x :: t => if n =? 0 then Some (u :: t) else match updN t (N.pred n) u with Some t' => Some (x :: t') | None => None end
    end.
  (** [index_mut] of the text: [self.f.node_weight_mut(i).expect(..)] *)
  Definition index_field (t : string) : option string :=
    match find_fn g (Some t) "index_mut" with
    | Some d => match fn_body d with [SLast (EMethod (EMethod (EField _ f) m [_]) _ [_])] => if m =s "node_weight_mut" then Some f else None | _ => None end
    | None => None
    end.
  (** a weight of a graph, changed *)
  Definition set_weight (v j : val) (fs : list string) (u : val) : option val :=
    match v, j with
    | VStruct _ [(_, VList ns); (_, VList es)], VCtor _ [VInt _ n] =>
      match nthN ns n with
      | Some w => match set_path w fs u with Some w' => match updN ns n w' with Some ns' => Some (graph_ ns' es) | None => None end | None => None end
      | None => None
      end
    | _, _ => None
    end.
  Definition put_elem (ep : (string * list string) * string * list string) (u : val) (s : env) : option env :=
    match ep with (pl, i, fs) =>
      match lookup i s, read_place pl s with
      | Some j, Some (VStruct t l) =>
        if t =s "Graph" then match set_weight (VStruct t l) j fs u with Some v => write_place pl v s | None => None end
        else match index_field t with
             | Some f =>
               match lookup f l with
               | Some v => match set_weight v j fs u with Some v' => write_place (fst pl, snd pl ++ [f]) v' s | None => None end
               | None => None
               end
             | None => None
             end
      | _, _ => None
      end
    end.
  (** copy back what was passed as [&mut] *)
  Fixpoint copy_back (ps : list (string * ty)) (args : list expr) (outs : list val) (s : env) : option env :=
    match ps, args, outs with
    | [], [], [] => Some s
    | (_, t) :: ps', a :: args', v :: outs' =>
      match t with
      | TyRef true _ =>
        match place a with
        | Some pl => match write_place pl v s with Some s' => copy_back ps' args' outs' s' | None => None end
        | None =>
          match elem_place a with
          | Some ep => match put_elem ep v s with Some s' => copy_back ps' args' outs' s' | None => None end
          | None => copy_back ps' args' outs' s
          end
        end
      | _ => copy_back ps' args' outs' s
      end
    | _, _, _ => None
    end.
  Definition call_fn (o : option string) (f : string) (args : list expr) (vs : list val) (s : env) : M :=
    match find_fn g o f with
    | None => stuck
    | Some d =>
      bind (callf o f vs) (fun r =>
        match r with
        | Some (v, outs) =>
          match copy_back (fn_params d) args outs s with Some s' => val_ v s' | None => stuck end
        | None => stuck
        end)
    end.
  (** an operator: builtin, or the method of a trait *)
  Definition apply_op (o : bop) (x y : val) (s : env) : M :=
    match x, op_method o with
    | VStruct t _, Some m =>
      bind (callf (Some t) m [x; y]) (fun r => match r with Some (v, _) => val_ v s | None => stuck end)
    | _, _ => bind (binop p o x y) (fun r => match r with Some v => val_ v s | None => stuck end)
    end.
  (** [x op= y]: the new value of [x] *)
  Definition apply_assign (o : bop) (x y : val) : outcome (option val) :=
    match x, op_method o with
    | VStruct t _, Some m =>
      bind (callf (Some t) (m ++ "_assign")%string [x; y]) (fun r => match r with Some (_, v :: _) => Ret (Some v) | _ => Ret None end)
    | _, _ => binop p o x y
    end.
  Fixpoint fromN (l : list val) (n : N) : option (list val) :=
    if n =? 0 then Some l else match l with [] => None | _ :: t => fromN t (N.pred n) end.
  Definition index (v i : val) : outcome (option val) :=
    match v with
    | VList l =>
      match i with
      | VInt Usize n | VLit n =>
        match nthN l n with Some u => Ret (Some u) | None => Panic PIndex end
      | VCtor c [VInt Usize n] =>
        if c =s "RangeFrom" then match fromN l n with Some r => Ret (Some (VList r)) | None => Panic PIndex end else Ret None
      | _ => Ret None
      end
    | _ => Ret None
    end.
  Definition set_index (v i u : val) : outcome (option val) :=
    match v with
    | VList l =>
      match i with
      | VInt Usize n | VLit n =>
        match updN l n u with Some l' => Ret (Some (VList l')) | None => Panic PIndex end
      | _ => Ret None
      end
    | _ => Ret None
    end.
  Fixpoint override (lb l : list (string * val)) : option (list (string * val)) :=
    match l with
    | [] => Some lb
    | (f, v) :: t => match assign f v lb with Some lb' => override lb' t | None => None end
    end.
  Definition lift (m : outcome (option val)) (k : val -> M) : M :=
    bind m (fun r => match r with Some v => k v | None => stuck end).
  (** [into] of a type of the text *)
  Definition converted (t : string) (x : expr) (self : val) (s : env) : M :=
    match find_from g t with
    | Some o => call_fn (Some o) ("from<" ++ t ++ ">")%string [x] [self] s
    | None => stuck
    end.
  (** methods of structs that are not in the text *)
  Definition special (t m : string) (x : expr) (self : val) (vs : list val) (s : env) : M :=
    if (m =s "as_mut") || (m =s "get_unchecked_mut") then val_ self s
    else if t =s "Graph" then
      bind (graph_method m self vs) (fun r =>
        match r with
        | Some (v, self') =>
          match place x with Some pl => match write_place pl self' s with Some s' => val_ v s' | None => stuck end | None => stuck end
        | None => stuck
        end)
    else if (t =s "OccupiedEntry") && (m =s "get") then
      match self with VStruct _ [(_, v)] => val_ v s | _ => stuck end
    else if (t =s "VacantEntry") && (m =s "insert") then
      match place x, vs with
      | Some pl, [v] => match write_place pl (VStruct t [("value", some_ v)]) s with Some s' => val_ VUnit s' | None => stuck end
      | _, _ => stuck
      end
    else stuck.
  (** functions and constructors that are not in the text *)
  Definition foreign (o : option string) (f : string) (args : list expr) (vs : list val) (s : env) : M :=
    match o with
    | None =>
      if nom f then val_ (VCtor f vs) s
      else if f =s "min" then
        match vs with
        | [VStruct t _ as a; b] =>
          bind (callf (Some t) "cmp" [a; b]) (fun r =>
            match r with Some (VCtor c _, _) => val_ (if c =s "Ordering::Greater" then b else a) s | _ => stuck end)
        | _ => stuck
        end
      else stuck
    | Some t =>
      if is_upper f then val_ (VCtor (path_name [t; f]) vs) s
      else match vs with
      | [] =>
        if f =s "default" then match default_ty 5 g (TyName [t] []) with Some v => val_ v s | None => stuck end
        else if (f =s "new") && (t =s "String") then val_ (VStr []) s
        else if (f =s "new") && (t =s "Vec") then val_ (VList []) s
        else if (f =s "new") && (t =s "HashSet") then val_ (VCtor "HashSet" []) s
        else if (f =s "new") && (t =s "Graph") then val_ (graph_ [] []) s
        else if (f =s "end") && (t =s "NodeIndex") then val_ (ix_ (2 ^ 32 - 1)) s
        else if (f =s "dangling") && (t =s "NonNull") then val_ (VCtor "NonNull" []) s
        else stuck
      | [a] =>
        if ((t =s "Box") && (f =s "pin")) || (t =s "Pin") then val_ a s
        else if (t =s "NonNull") && (f =s "from") then val_ (VCtor "NonNull" []) s    (* an address: not followed *)
        else if (t =s "NodeIndex") && (f =s "new") then
          match a with VInt _ n => val_ (ix_ (cast 32 n)) s | _ => stuck end
        else stuck
      | [a; b] =>
        if (t =s "mem") && (f =s "swap") then
          match args with
          | [x; y] =>
            match place x, place y with
            | Some px, Some py =>
              match write_place px b s with
              | Some s1 => match write_place py a s1 with Some s2 => val_ VUnit s2 | None => stuck end
              | None => stuck
              end
            | _, _ => stuck
            end
          | _ => stuck
          end
        else stuck
      | _ => stuck
      end
    end.
  (** one layer of an expression, [eval] giving its parts *)
  Section Step.
  Context (eval : expr -> env -> M).
  Fixpoint evals (l : list expr) (s : env) (k : list val -> env -> M) {struct l} : M :=
    match l with
    | [] => k [] s
    | x :: t => bindv (eval x s) (fun v s1 => evals t s1 (fun vs s2 => k (v :: vs) s2))
    end.
  (** the borrow of [pl] by [x] ends with the block *)
  Definition returned (x : string) (pl : string * list string) (s : env) (r : option (flow * env)) : M :=
    match r with
    | Some (f, s') =>
      match leave ((x, VUnit) :: s) s' with
      | (_, u) :: s2 => match write_place pl (some_ u) s2 with Some s3 => Ret (Some (f, s3)) | None => stuck end
      | [] => stuck
      end
    | None => stuck
    end.
  Definition lent (x : string) (put : val -> env -> option env) (s : env) (r : option (flow * env)) : M :=
    match r with
    | Some (f, s') =>
      match leave ((x, VUnit) :: s) s' with
      | (_, u) :: s2 => match put u s2 with Some s3 => Ret (Some (f, s3)) | None => stuck end
      | [] => stuck
      end
    | None => stuck
    end.
  Definition lend (x : string) (e : expr) (k : env -> M) (s : env) : M :=
    match place e with
    | None => stuck
    | Some pl =>
      match read_place pl s, write_place pl VBorrowed s with
      | Some u, Some s1 => bind (k ((x, u) :: s1)) (lent x (write_place pl) s)
      | _, _ => stuck
      end
    end.
  Fixpoint exec (b : list stmt) (s : env) {struct b} : M :=
    match b with
    | [] => val_ VUnit s
    | SLet q t o :: r =>
      match o with
      | None => stuck
      | Some (EUn URefMut _) => stuck
      | Some x =>
        bindv (eval x s) (fun v s1 =>
          match pmatch q (match t with Some t' => coerce t' v | None => v end) s1 with
          | Some s2 => exec r s2
          | None => stuck
          end)
      end
    | SBorrow x e :: r =>
      match place e with
      | None => stuck
      | Some pl =>
        match read_place pl s with
        | Some (VCtor c [u]) =>
          if c =s "Some" then
            match write_place pl VBorrowed s with
            | Some s1 => bind (exec r ((x, u) :: s1)) (returned x pl s)
            | None => stuck
            end
          else stuck
        | Some (VCtor c []) => if c =s "None" then Panic PExpect else stuck
        | _ => stuck
        end
      end
    | SRef x e :: r => lend x e (exec r) s
    | SRefIf x c y z :: r =>
      bindv (eval c s) (fun v s1 => match v with VBool true => lend x y (exec r) s1 | VBool false => lend x z (exec r) s1 | _ => stuck end)
    | SRefEntry x m k e :: r =>
      bindv (eval k s) (fun key s1 =>
        match place m with
        | None => stuck
        | Some pl =>
          match read_place pl s1, write_place pl VBorrowed s1 with
          | Some (VCtor c l), Some s2 =>
            let put u := write_place pl (VCtor c (map_set key u l)) in
            match map_get key l with
            | Some u => bind (exec r ((x, u) :: s2)) (lent x put s2)
            | None => bindv (eval e s2) (fun u s3 => bind (exec r ((x, u) :: s3)) (lent x put s3))
            end
          | _, _ => stuck
          end
        end)
    | SExpr x :: r => bindv (eval x s) (fun _ s1 => exec r s1)
    | SLast x :: _ => eval x s
    end.
  (** a block restores the scope whatever way it ends *)
  Definition leaving (outer : env) (r : option (flow * env)) : M :=
    match r with Some (f, s') => Ret (Some (f, leave outer s')) | None => stuck end.
  Definition block (b : list stmt) (outer s : env) : M := bind (exec b s) (leaving outer).
  Fixpoint match_any (qs : list pat) (v : val) (s : env) : option env :=
    match qs with
    | [] => None
    | q :: qs' => match pmatch q v s with Some s2 => Some s2 | None => match_any qs' v s end
    end.
  (** what was matched is the place [pl], if it is one: what the arm did to the variables of the
      pattern it did there *)
  Definition matched (pl : option (string * list string)) (qs : list pat) (v : val) (outer : env) (r : option (flow * env)) : M :=
    match r with
    | Some (f, s') =>
      match pl, qs with
      | Some pl', [q] => match write_place pl' (rebuilt q v s') (leave outer s') with Some s2 => Ret (Some (f, s2)) | None => stuck end
      | _, _ => Ret (Some (f, leave outer s'))
      end
    | None => stuck
    end.
  Fixpoint arms (pl : option (string * list string)) (l : list (list pat * option expr * expr)) (v : val) (s : env) : M :=
    match l with
    | [] => stuck
    | (qs, None, r) :: t =>
      match match_any qs v s with
      | Some s2 => bind (eval r s2) (matched pl qs v s)
      | None => arms pl t v s
      end
    | (_, Some _, _) :: _ => stuck
    end.
  Fixpoint fields (x : string) (l : list (string * expr)) (s : env) (acc : list (string * val)) {struct l} : M :=
    match l with
    | [] => val_ (VStruct x (rev acc)) s
    | (f, e) :: t => bindv (eval e s) (fun v s1 => fields x t s1 ((f, v) :: acc))
    end.
  (** a closure applied where it is written *)
  Definition applied (ps : list pat) (b : expr) (vs : list val) (s : env) (k : val -> env -> M) : M :=
    match (fix all (ps : list pat) (vs : list val) (s : env) : option env :=
             match ps, vs with
             | [], [] => Some s
             | q :: ps', v :: vs' => match pmatch q v s with Some s' => all ps' vs' s' | None => None end
             | _, _ => None
             end) ps vs s with
    | Some s1 => bind (eval b s1) (fun r => match r with Some (FVal v, s2) => k v (leave s s2) | _ => stuck end)
    | None => stuck
    end.
  Definition kept (ps : list pat) (b : expr) : list val -> env -> (list val -> env -> M) -> M :=
    fix go l s k :=
      match l with
      | [] => k [] s
      | v :: t => applied ps b [v] s (fun r s1 =>
          match r with VBool c => go t s1 (fun l' s2 => k (if c then v :: l' else l') s2) | _ => stuck end)
      end.
  (** the first that satisfies it, and how many do not *)
  Definition found (ps : list pat) (b : expr) : list val -> N -> env -> (option (N * val) -> env -> M) -> M :=
    fix go l i s k :=
      match l with
      | [] => k None s
      | v :: t => applied ps b [v] s (fun r s1 =>
          match r with VBool true => k (Some (i, v)) s1 | VBool false => go t (i + 1) s1 k | _ => stuck end)
      end.
  Definition folded (ps : list pat) (b : expr) : list val -> val -> env -> M :=
    fix go l a s :=
      match l with
      | [] => val_ a s
      | v :: t => applied ps b [a; v] s (fun a' s1 => go t a' s1)
      end.
  Definition with_ (pl : option (string * list string)) (m : string) (self : val) (vs : list val) (ps : list pat) (b : expr) (s : env) : M :=
    match self with
    | VList l =>
      if m =s "retain" then
        match pl with
        | Some pl' => kept ps b l s (fun l' s1 => match write_place pl' (VList l') s1 with Some s2 => val_ VUnit s2 | None => stuck end)
        | None => stuck
        end
      else if m =s "find" then found ps b l 0 s (fun o s1 => val_ (match o with Some (_, v) => some_ v | None => none_ end) s1)
      else if m =s "position" then found ps b l 0 s (fun o s1 => val_ (match o with Some (i, _) => some_ (VInt Usize i) | None => none_ end) s1)
      else if m =s "fold" then match vs with [a] => folded ps b l a s | _ => stuck end
      else stuck
    | VCtor c l =>
      if m =s "map_err" then
        match l with
        | [u] => if c =s "Ok" then val_ self s else if c =s "Err" then applied ps b [u] s (fun v s1 => val_ (VCtor c [v]) s1) else stuck
        | _ => stuck
        end
      else if m =s "unwrap_or_else" then
        match l with
        | [u] => if c =s "Some" then val_ u s else stuck
        | [] => if c =s "None" then applied ps b [] s (fun v s1 => val_ v s1) else stuck
        | _ => stuck
        end
      else stuck
    | _ => stuck
    end.
  Definition step (e : expr) (s : env) : M :=
    match e with
    | ENum n w => match w with EmptyString => val_ (VLit n) s | _ => match width_of w with Some w' => val_ (VInt w' n) s | None => stuck end end
    | EBool b => val_ (VBool b) s
    | EText t => val_ (VStr t) s
    | EBytes t => val_ (VList (map (VInt U8) t)) s
    | EChar c => val_ (VChar c) s
    | EByte c => val_ (VInt U8 c) s
    | EPath path =>
      match (match path with [x] => lookup x s | _ => None end) with
      | Some v => val_ v s
      | None =>
        match path with
        | [x] => if x =s "None" then val_ none_ s else if x =s "PhantomPinned" then val_ VUnit s else call_fn None x [] [] s
        | [t; c] =>
          match find_fn g (Some (self_name t)) c with
          | Some _ => call_fn (Some (self_name t)) c [] [] s
          | None => val_ (VCtor (path_name [self_name t; c]) []) s
          end
        | _ => val_ (VCtor (path_name path) []) s
        end
      end
    | EField x f =>
      bindv (eval x s) (fun v s1 =>
        match v with
        | VStruct _ l => match lookup f l with Some u => val_ u s1 | None => stuck end
        | VTuple [a; b] => if f =s "0" then val_ a s1 else if f =s "1" then val_ b s1 else stuck
        | _ => stuck
        end)
    | EIndex x i =>
      bindv (eval x s) (fun v s1 => bindv (eval i s1) (fun j s2 =>
        match v with
        | VStruct t l =>
          if t =s "Graph" then
            match l, j with
            | [(_, VList ns); _], VCtor _ [VInt _ n] => match nthN ns n with Some u => val_ u s2 | None => Panic PIndex end
            | _, _ => stuck
            end
          else bind (callf (Some t) "index" [v; j]) (fun r => match r with Some (u, _) => val_ u s2 | None => stuck end)
        | _ => lift (index v j) (fun u => val_ u s2)
        end))
    | ECall path args =>
      evals args s (fun vs s1 =>
        match path, vs with
        | [x], [v] =>
          if (x =s "Some") || (x =s "Ok") || (x =s "Err") then val_ (VCtor x [v]) s1
          else match find_fn g None x with
               | Some _ => call_fn None x args vs s1
               | None => foreign None x args vs s1
               end
        | _, _ =>
          let (o, f) := resolve path in
          match find_fn g o f with
          | Some _ => call_fn o f args vs s1
          | None => foreign o f args vs s1
          end
        end)
    | EApply x args =>
      bindv (eval x s) (fun v s1 => evals args s1 (fun vs s2 =>
        match vs with
        | [VStr t] =>
          match parser v t with
          | Some (Some (rest, u)) => val_ (ok_ (VTuple [VStr rest; u])) s2
          | Some None => val_ (VCtor "Err" [VUnit]) s2
          | None => stuck
          end
        | _ => stuck
        end))
    | EMap x q b =>
      bindv (eval x s) (fun v s1 =>
        match v with
        | VCtor c [u] =>
          if (c =s "Ok") || (c =s "Some") then
            match pmatch q u s1 with
            | Some s2 => bind (eval b s2) (fun r => match r with Some (FVal w, s3) => val_ (VCtor c [w]) (leave s1 s3) | _ => stuck end)
            | None => stuck
            end
          else if c =s "Err" then val_ v s1
          else stuck
        | _ => stuck
        end)
    | EMethod x m args =>
      bindv (eval x s) (fun self s1 =>
        evals args s1 (fun vs s2 =>
          match self with
          | VStruct t _ =>
            match find_fn g (Some t) m with
            | Some _ => call_fn (Some t) m (x :: args) (self :: vs) s2
            | None => if m =s "clone" then val_ self s2 else if m =s "into" then converted t x self s2 else special t m x self vs s2
            end
          | _ =>
            match mutating m self vs with
            | Some (v, self') =>
              match place x with
              | Some pl => match write_place pl self' s2 with Some s3 => val_ v s3 | None => stuck end
              | None =>
                match elem_place x with
                | Some ep => match put_elem ep self' s2 with Some s3 => val_ v s3 | None => stuck end
                | None => val_ v s2
                end
              end
            | None =>
            match type_name self with
            | Some t =>
              match find_fn g (Some t) m with
              | Some _ => call_fn (Some t) m (x :: args) (self :: vs) s2
              | None =>
                if m =s "into" then converted t x self s2
                else if (m =s "index") && (t =s "NodeIndex") then
                  match self with VCtor _ [VInt _ n] => val_ (VInt Usize n) s2 | _ => stuck end
                else stuck
              end
            | None =>
            bind (builtin p m self vs) (fun r =>
              match r with
              | Some (v, self') =>
                match self with
                | VStr _ =>
                  match place x with
                  | Some pl => match write_place pl self' s2 with Some s3 => val_ v s3 | None => stuck end
                  | None => val_ v s2
                  end
                | _ => val_ v s2
                end
              | None => stuck
              end)
            end end
          end))
    | EMacro m args =>
      if m =s "assert" then
        match args with
        | c :: _ => bindv (eval c s) (fun v s1 => match v with VBool b => bind (rs_assert b) (fun _ => val_ VUnit s1) | _ => stuck end)
        | [] => stuck
        end
      else if m =s "debug_assert" then
        match args with
        | c :: _ =>
          if debug_assertions p then
            bindv (eval c s) (fun v s1 => match v with VBool b => if b then val_ VUnit s1 else Panic PDebugAssert | _ => stuck end)
          else val_ VUnit s
        | [] => stuck
        end
      else if m =s "format" then
        evals args s (fun vs s1 =>
          match vs with
          | VStr f :: vs' => match format_ (S (List.length f)) f vs' with Some r => val_ (VStr r) s1 | None => stuck end
          | _ => stuck
          end)
      else if m =s "write" then
        match args with
        | d :: rest =>
          evals rest s (fun vs s1 =>
            match vs, place d with
            | VStr f :: vs', Some pl =>
              match format_ (S (List.length f)) f vs', read_place pl s1 with
              | Some r, Some (VStr old) => match write_place pl (VStr (old ++ r)) s1 with Some s2 => val_ (ok_ VUnit) s2 | None => stuck end
              | _, _ => stuck
              end
            | _, _ => stuck
            end)
        | [] => stuck
        end
      else if m =s "vec" then evals args s (fun vs s1 => val_ (VList vs) s1)
      else if m =s "hashset" then evals args s (fun vs s1 => val_ (VCtor "HashSet" (fold_left set_add vs [])) s1)
      else if m =s "izip" then
        evals args s (fun vs s1 =>
          match vs with
          | [VList a; VList b; VList c] => val_ (VList (map (fun x => VTuple [fst (fst x); snd (fst x); snd x]) (combine (combine a b) c))) s1
          | _ => stuck
          end)
      else if m =s "unimplemented" then Panic PUnimplemented
      else stuck
    | EUn o x =>
      bindv (eval x s) (fun v s1 =>
        match o with
        | URef | URefMut | UDeref => val_ v s1
        | UNot =>
          match v with
          | VBool b => val_ (VBool (negb b)) s1
          | VInt w n => val_ (VInt w (bnot (bits p w) n)) s1
          | VStruct t _ => bind (callf (Some t) "not" [v]) (fun r => match r with Some (u, _) => val_ u s1 | None => stuck end)
          | _ => stuck
          end
        | UNeg => stuck
        end)
    | EBin BLand a b =>
      bindv (eval a s) (fun v s1 => match v with VBool true => eval b s1 | VBool false => val_ v s1 | _ => stuck end)
    | EBin BLor a b =>
      bindv (eval a s) (fun v s1 => match v with VBool true => val_ v s1 | VBool false => eval b s1 | _ => stuck end)
    | EBin o a b =>
      bindv (eval a s) (fun v s1 => bindv (eval b s1) (fun u s2 => apply_op o v u s2))
    | EAssign o l r =>
      bindv (eval r s) (fun v s1 =>
        match l with
        | EIndex base i =>
          match place base with
          | None => stuck
          | Some pl =>
            bindv (eval i s1) (fun j s2 =>
              match read_place pl s2 with
              | None => stuck
              | Some arr =>
                lift (index arr j) (fun old =>
                  lift (match o with None => Ret (Some (adopt old v)) | Some o' => apply_assign o' old v end) (fun new =>
                    lift (set_index arr j new) (fun arr' =>
                      match write_place pl arr' s2 with Some s3 => val_ VUnit s3 | None => stuck end)))
              end)
          end
        | _ =>
          match place l with
          | None =>
            match elem_place l with
            | None => stuck
            | Some ep =>
              bindv (eval l s1) (fun old s2 =>
                lift (match o with None => Ret (Some (adopt old v)) | Some o' => apply_assign o' old v end) (fun new =>
                  match put_elem ep new s2 with Some s3 => val_ VUnit s3 | None => stuck end))
            end
          | Some pl =>
            match read_place pl s1 with
            | None => stuck
            | Some old =>
              lift (match o with None => Ret (Some (adopt old v)) | Some o' => apply_assign o' old v end) (fun new =>
                match write_place pl new s1 with Some s3 => val_ VUnit s3 | None => stuck end)
            end
          end
        end)
    | ECast x t => bindv (eval x s) (fun v s1 => match cast_val p v t with Some u => val_ u s1 | None => stuck end)
    | ERange incl (Some a) (Some b) => bindv (eval a s) (fun v s1 => bindv (eval b s1) (fun u s2 => val_ (VRange incl v u) s2))
    | ERange false (Some a) None => bindv (eval a s) (fun v s1 => val_ (VCtor "RangeFrom" [v]) s1)
    | ERange _ _ _ => stuck
    | EIf c t el =>
      bindv (eval c s) (fun v s1 =>
        match v with
        | VBool b => if b then block t s1 s1 else match el with Some f => block f s1 s1 | None => val_ VUnit s1 end
        | _ => stuck
        end)
    | EIfLet q c t el =>
      bindv (eval c s) (fun v s1 =>
        match pmatch q v s1 with
        | Some s2 => block t s1 s2
        | None => match el with Some f => block f s1 s1 | None => val_ VUnit s1 end
        end)
    | EMatch x l => bindv (eval x s) (fun v s1 => arms (place x) l v s1)
    | EWhile c b => loopf (WWhile c b) s
    | EWhileLet q c b => loopf (WWhileLet q c b) s
    | ELoop b => loopf (WLoop b) s
    | EFor (PVar x) (EMethod (EIndex a (ERange false (Some lo) (Some hi))) m []) b =>
      match (if m =s "iter_mut" then place a else None) with
      | None => stuck
      | Some pl =>
        bindv (eval lo s) (fun i s1 => bindv (eval hi s1) (fun j s2 =>
          match read_place pl s2, i, j with
          | Some (VList l), (VInt Usize n | VLit n), (VInt Usize m | VLit m) =>
            if (n <=? m) && (m <=? N.of_nat (List.length l)) then loopf (WForMut x pl n m b) s2 else Panic PIndex
          | _, _, _ => stuck
          end))
      end
    | EFor (PVar x) (EUn URefMut a) b =>
      match place a with
      | None => stuck
      | Some pl => match read_place pl s with Some (VList l) => loopf (WForMut x pl 0 (N.of_nat (List.length l)) b) s | _ => stuck end
      end
    | EFor q x b =>
      bindv (eval x s) (fun v s1 =>
        match items_of v with
        | Some l => loopf (WFor q l b) s1
        | None =>
          match type_name v with
          | Some t =>
            match find_fn g (Some t) "next" with
            | Some _ => loopf (WForIter q v b) s1
            | None => bind (callf (Some t) "into_iter" [v]) (fun r => match r with Some (it, _) => loopf (WForIter q it b) s1 | None => stuck end)
            end
          | None => stuck
          end
        end)
    | EBlock b => block b s s
    | EReturn None => Ret (Some (FRet VUnit, s))
    | EReturn (Some x) => bindv (eval x s) (fun v s1 => Ret (Some (FRet v, s1)))
    | EBreak => Ret (Some (FBrk, s))
    | EContinue => Ret (Some (FCont, s))
    | ETry x =>
      bindv (eval x s) (fun v s1 =>
        match v with
        | VCtor c [u] => if (c =s "Ok") || (c =s "Some") then val_ u s1 else if c =s "Err" then Ret (Some (FRet v, s1)) else stuck
        | VCtor c [] => if c =s "None" then Ret (Some (FRet v, s1)) else stuck
        | _ => stuck
        end)
    | ETuple l => evals l s (fun vs s1 => val_ (match vs with [] => VUnit | _ => VTuple vs end) s1)
    | EArray l => evals l s (fun vs s1 => val_ (VList vs) s1)
    | EStruct path fs => fields (self_name (path_name path)) fs s []
    | EUpdate path fs base =>
      bindv (fields (self_name (path_name path)) fs s []) (fun v s1 => bindv (eval base s1) (fun b s2 =>
        match v, b with
        | VStruct x l, VStruct _ lb => match override lb l with Some l' => val_ (VStruct x l') s2 | None => stuck end
        | _, _ => stuck
        end))
    | EClosure _ _ => stuck
    | EWith x m pre ps b => bindv (eval x s) (fun v s1 => evals pre s1 (fun vs s2 => with_ (place x) m v vs ps b s2))
    | EMatches x qs => bindv (eval x s) (fun v s1 => val_ (VBool (match match_any qs v s1 with Some _ => true | None => false end)) s1)
    | EEntry m k x a y b =>
      bindv (eval k s) (fun key s1 =>
        match place m with
        | None => stuck
        | Some pl =>
          match read_place pl s1 with
          | Some (VCtor c l) =>
            match map_get key l with
            | Some v => bind (eval a ((x, VStruct "OccupiedEntry" [("value", v)]) :: s1)) (leaving s1)
            | None =>
              bind (eval b ((y, VStruct "VacantEntry" [("value", none_)]) :: s1))
                (lent y (fun u s2 =>
                   match u with
                   | VStruct _ [(_, VCtor _ [v])] => write_place pl (VCtor c (map_set key v l)) s2
                   | _ => Some s2
                   end) s1)
            end
          | _ => stuck
          end
        end)
    | EOrInsert m k v =>
      bindv (eval k s) (fun key s1 => bindv (eval v s1) (fun new s2 =>
        match place m with
        | None => stuck
        | Some pl =>
          match read_place pl s2 with
          | Some (VCtor c l) =>
            match map_get key l with
            | Some old => val_ old s2
            | None => match write_place pl (VCtor c (map_set key new l)) s2 with Some s3 => val_ new s3 | None => stuck end
            end
          | _ => stuck
          end
        end))
    | ETryInto x t =>
      bindv (eval x s) (fun v s1 =>
        match v with
        | VInt w n =>
          match width_of t with
          | Some w' => val_ (if widens w w' then ok_ (VInt w' n) else if n <? 2 ^ bits p w' then ok_ (VInt w' n) else VCtor "Err" [VUnit]) s1
          | None =>
            bind (callf (Some t) ("try_from<" ++ width_name w ++ ">")%string [v]) (fun r => match r with Some (u, _) => val_ u s1 | None => stuck end)
          end
        | _ => stuck
        end)
    end.
  End Step.
  Fixpoint eval (e : expr) (s : env) {struct e} : M := step eval e s.
End Eval.

(** ** Loops: [lf] bounds the number of turns *)
(** after a turn: [s] is the scope before it, [again] the rest of the loop *)
Definition turned (s : env) (again : env -> M) (r : option (flow * env)) : M :=
  match r with
  | Some (FVal _, s2) | Some (FCont, s2) => again (leave s s2)
  | Some (FBrk, s2) => val_ VUnit (leave s s2)
  | Some (FRet v, s2) => Ret (Some (FRet v, leave s s2))
  | None => stuck
  end.
(** after a turn with [x] borrowed from element [i] of [pl]: put it back *)
Definition put_back (x : string) (pl : string * list string) (i : N) (s : env) (r : option (flow * env)) : option (flow * env) :=
  match r with
  | Some (fl, s2) =>
    match leave ((x, VUnit) :: s) s2 with
    | (_, u) :: s3 =>
      match read_place pl s3 with
      | Some (VList l) =>
        match updN l i u with
        | Some l' => match write_place pl (VList l') s3 with Some s4 => Some (fl, s4) | None => None end
        | None => None
        end
      | _ => None
      end
    | [] => None
    end
  | None => None
  end.
(** one turn: [ev] evaluates, [again] goes on *)
Definition turn (ev : expr -> env -> M) (again : work -> env -> M) (w : work) (s : env) : M :=
  match w with
  | WWhile c b =>
    bindv (ev c s) (fun v s1 =>
      match v with
      | VBool true => bind (ev (EBlock b) s1) (turned s (again w))
      | VBool false => val_ VUnit s1
      | _ => stuck
      end)
  | WWhileLet q c b =>
    bindv (ev c s) (fun v s1 =>
      match pmatch q v s1 with Some s2 => bind (ev (EBlock b) s2) (turned s (again w)) | None => val_ VUnit s1 end)
  | WLoop b => bind (ev (EBlock b) s) (turned s (again w))
  | WFor q items b =>
    match items with
    | [] => val_ VUnit s
    | v :: t =>
      match pmatch q v s with Some s1 => bind (ev (EBlock b) s1) (turned s (again (WFor q t b))) | None => stuck end
    end
  | WForIter q it b =>
    bindv (ev (EMethod (EPath ["<iter>"]) "next" []) (("<iter>", it) :: s)) (fun v s1 =>
      match s1 with
      | (_, it') :: s2 =>
        match v with
        | VCtor _ [u] => match pmatch q u s2 with Some s3 => bind (ev (EBlock b) s3) (turned s (again (WForIter q it' b))) | None => stuck end
        | _ => val_ VUnit s2
        end
      | [] => stuck
      end)
  | WForMut x pl i j b =>
    if i <? j then
      match read_place pl s with
      | Some (VList l) =>
        match nthN l i with
        | Some v => bind (ev (EBlock b) ((x, v) :: s)) (fun r => turned s (again (WForMut x pl (i + 1) j b)) (put_back x pl i s r))
        | None => stuck
        end
      | _ => stuck
      end
    else val_ VUnit s
  end.
Fixpoint loop (p : profile) (g : program) (own : option string)
  (callf : option string -> string -> list val -> outcome (option (val * list val))) (lf : nat) (w : work) (s : env) : M :=
  match lf with
  | O => Diverge
  | S lf' => turn (eval p g own callf (loop p g own callf lf')) (loop p g own callf lf') w s
  end.

(** ** Calls: [d] bounds the depth *)
Fixpoint bind_params (ps : list (string * ty)) (vs : list val) : option env :=
  match ps, vs with
  | [], [] => Some []
  | (x, t) :: ps', v :: vs' => match bind_params ps' vs' with Some s => Some ((x, coerce t v) :: s) | None => None end
  | _, _ => None
  end.
Definition returning (t : ty) (r : option (flow * env)) : outcome (option (val * list val)) :=
  match r with
  | Some (FVal v, s') | Some (FRet v, s') => Ret (Some (coerce t v, map snd s'))
  | _ => Ret None
  end.
Fixpoint call (p : profile) (g : program) (lf : nat) (d : nat) (o : option string) (f : string) (vs : list val)
  : outcome (option (val * list val)) :=
  match d with
  | O => Diverge
  | S d' =>
    match find_fn g o f with
    | None => Ret None
    | Some fd =>
      match bind_params (fn_params fd) vs with
      | None => Ret None
      | Some s =>
        let callf := call p g lf d' in
        bind (eval p g (fn_owner fd) callf (loop p g (fn_owner fd) callf lf) (EBlock (fn_body fd)) s) (returning (fn_ret fd))
      end
    end
  end.
