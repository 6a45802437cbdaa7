(** A fragment of Rust: lexer, parser and interpreter.  The interpreter is a second reading of
    the source, independent of the hand-written model: it is given the text of a file of
    /repo and knows nothing about the functions in it.

    Values carry their integer type; an unsuffixed literal, and a [u8] after [.into()], take the
    type of what they are combined with, and two of them combined are stuck ([Ret None]),
    never guessed.  References are values: an argument of type [&mut T] is copied in and copied
    back, which is the same thing because Rust forbids aliasing it. *)
From Verif Require Import Base.
Local Open Scope string_scope.
Local Open Scope N_scope.
Local Open Scope list_scope.
Local Notation "a =s b" := (String.eqb a b) (at level 70).

(** ** Tokens *)
Inductive kw := K_mut | K_return | K_break | K_continue | K_if | K_else | K_match | K_while | K_let | K_loop | K_for | K_in | K_as | K_true | K_false | K_fn | K_pub | K_use | K_mod | K_type | K_const | K_struct | K_enum | K_trait | K_impl | K_dyn | K_ref | K_where | K_under.
Inductive pc :=
| QDotDotEq | QShlEq | QShrEq | QColons | QArrow | QFatArrow | QEqEq | QBangEq | QLtEq | QGtEq | QAmpAmp | QBarBar
| QPlusEq | QMinusEq | QStarEq | QSlashEq | QPercentEq | QCaretEq | QAmpEq | QBarEq | QLtLt | QGtGt | QDotDot | QLParen
| QRParen | QLBracket | QRBracket | QLBrace | QRBrace | QLt | QGt | QEq | QColon | QSemi | QComma | QDot
| QPlus | QMinus | QStar | QSlash | QPercent | QCaret | QAmp | QBar | QBang | QQuest | QHash | QAt.
Scheme Boolean Equality for pc.
Inductive tok :=
| TId (s : string)
| TNum (n : N) (suffix : string)
| TStr (s : str) | TBytes (s : str)
| TChar (c : N) | TByte (c : N)
| TK (k : kw)
| TP (q : pc).

Definition code (c : ascii) : N := N_of_ascii c.
Definition between_c (a b : N) (c : ascii) : bool := (a <=? code c) && (code c <=? b).
Definition is_digit (c : ascii) : bool := between_c 48 57 c.
Definition is_word_start (c : ascii) : bool := between_c 65 90 c || between_c 97 122 c || (code c =? 95).
Definition is_word (c : ascii) : bool := is_word_start c || is_digit c.
Definition is_blank (c : ascii) : bool := (code c =? 32) || (code c =? 10) || (code c =? 9) || (code c =? 13).

Fixpoint span (f : ascii -> bool) (s : string) : string * string :=
  match s with
  | String c t => if f c then let (a, b) := span f t in (String c a, b) else ("", s)
  | EmptyString => ("", "")
  end.
Fixpoint skip_line (s : string) : string :=
  match s with
  | String c t => if code c =? 10 then t else skip_line t
  | EmptyString => EmptyString
  end.

Definition hex_value (c : ascii) : option N :=
  if is_digit c then Some (code c - 48)
  else if between_c 97 102 c then Some (code c - 87)
  else if between_c 65 70 c then Some (code c - 55)
  else None.
(** digits of a number in the base given, underscores dropped; the rest is the suffix *)
Fixpoint digits (base : N) (acc : N) (s : string) : N * string :=
  match s with
  | String c t =>
    if code c =? 95 then digits base acc t
    else match hex_value c with
         | Some d => if d <? base then digits base (acc * base + d) t else (acc, s)
         | None => (acc, s)
         end
  | EmptyString => (acc, "")
  end.
Definition number (w : string) : tok :=
  match w with
  | String "0" (String "x" t) => let (n, suf) := digits 16 0 t in TNum n suf
  | _ => let (n, suf) := digits 10 0 w in TNum n suf
  end.

(** the character after a backslash *)
Definition escape (s : string) : option (N * string) :=
  match s with
  | String "n" t => Some (10, t) | String "t" t => Some (9, t) | String "r" t => Some (13, t)
  | String "0" t => Some (0, t)
  | String "x" (String a (String b t)) =>
    match hex_value a, hex_value b with Some x, Some y => Some (16 * x + y, t) | _, _ => None end
  | String "u" (String _ t) =>          (* in braces *)
    match digits 16 0 t with (n, String _ r) => Some (n, r) | _ => None end
  | String c t => if (code c =? 92) || (code c =? 34) || (code c =? 39) then Some (code c, t) else None
  | EmptyString => None
  end.
(** the inside of a string literal, up to its closing quote *)
Fixpoint quoted (fuel : nat) (s : string) : option (str * string) :=
  match fuel with
  | O => None
  | S f =>
    match s with
    | EmptyString => None
    | String c t =>
      if code c =? 34 then Some ([], t)
      else if code c =? 92 then
        match escape t with
        | Some (x, t') => match quoted f t' with Some (l, r) => Some (x :: l, r) | None => None end
        | None => None
        end
      else match quoted f t with Some (l, r) => Some (code c :: l, r) | None => None end
    end
  end.
(** the inside of a raw string literal with one [#] or none *)
Fixpoint raw (hash : bool) (s : string) : option (str * string) :=
  match s with
  | EmptyString => None
  | String c t =>
    if (code c =? 34) && negb hash then Some ([], t)
    else match t with
         | String d t' =>
           if (code c =? 34) && (code d =? 35) then Some ([], t')
           else match raw hash t with Some (l, r) => Some (code c :: l, r) | None => None end
         | EmptyString => None
         end
  end.
Definition raw_string (s : string) : option (str * string) :=
  match s with
  | String c t =>
    if code c =? 34 then raw false t
    else match t with
         | String d t' => if (code c =? 35) && (code d =? 34) then raw true t' else None
         | EmptyString => None
         end
  | EmptyString => None
  end.
(** a character literal after its opening quote *)
Definition char_lit (s : string) : option (N * string) :=
  match s with
  | String c t =>
    if code c =? 92 then
      match escape t with
      | Some (x, String q r) => if code q =? 39 then Some (x, r) else None
      | _ => None
      end
    else match t with
         | String q r => if code q =? 39 then Some (code c, r) else None
         | EmptyString => None
         end
  | EmptyString => None
  end.

Definition keywords : list (string * kw) :=
  [("mut", K_mut); ("return", K_return); ("break", K_break); ("continue", K_continue); ("if", K_if); ("else", K_else); ("match", K_match); ("while", K_while); ("let", K_let); ("loop", K_loop); ("for", K_for); ("in", K_in); ("as", K_as); ("true", K_true); ("false", K_false); ("fn", K_fn); ("pub", K_pub); ("use", K_use); ("mod", K_mod); ("type", K_type); ("const", K_const); ("struct", K_struct); ("enum", K_enum); ("trait", K_trait); ("impl", K_impl); ("dyn", K_dyn); ("ref", K_ref); ("where", K_where); ("_", K_under)].
(** longest first *)
Definition puncts : list (string * pc) :=
  [("..=", QDotDotEq); ("<<=", QShlEq); (">>=", QShrEq); ("::", QColons); ("->", QArrow); ("=>", QFatArrow); ("==", QEqEq); ("!=", QBangEq); ("<=", QLtEq); (">=", QGtEq); ("&&", QAmpAmp); ("||", QBarBar); ("+=", QPlusEq); ("-=", QMinusEq); ("*=", QStarEq); ("/=", QSlashEq); ("%=", QPercentEq); ("^=", QCaretEq); ("&=", QAmpEq); ("|=", QBarEq); ("<<", QLtLt); (">>", QGtGt); ("..", QDotDot); ("(", QLParen); (")", QRParen); ("[", QLBracket); ("]", QRBracket); ("{", QLBrace); ("}", QRBrace); ("<", QLt); (">", QGt); ("=", QEq); (":", QColon); (";", QSemi); (",", QComma); (".", QDot); ("+", QPlus); ("-", QMinus); ("*", QStar); ("/", QSlash); ("%", QPercent); ("^", QCaret); ("&", QAmp); ("|", QBar); ("!", QBang); ("?", QQuest); ("#", QHash); ("@", QAt)].
Definition word (w : string) : tok :=
  match find (fun x => fst x =s w) keywords with Some (_, k) => TK k | None => TId w end.
Fixpoint strip (pre s : string) : option string :=
  match pre, s with
  | EmptyString, _ => Some s
  | String a p, String b t => if Ascii.eqb a b then strip p t else None
  | String _ _, EmptyString => None
  end.
Fixpoint punct (l : list (string * pc)) (s : string) : option (pc * string) :=
  match l with
  | [] => None
  | (x, q) :: l' => match strip x s with Some t => Some (q, t) | None => punct l' s end
  end.

Definition starts_quote (c : N) (s : string) : bool := match s with String d _ => code d =? c | EmptyString => false end.
Definition tail (s : string) : string := match s with String _ t => t | EmptyString => "" end.

Fixpoint lex (fuel : nat) (s : string) : option (list tok) :=
  match fuel with
  | O => None
  | S f =>
    let more (x : tok) (r : string) := match lex f r with Some l => Some (x :: l) | None => None end in
    match s with
    | EmptyString => Some []
    | String c t =>
      if is_blank c then lex f t
      else match strip "//" s with
      | Some r => lex f (skip_line r)
      | None =>
        if is_word_start c then
          let (w, r) := span is_word s in
          if (w =s "b") && starts_quote 39 r then
            match char_lit (tail r) with Some (x, r') => more (TByte x) r' | None => None end
          else if (w =s "b") && starts_quote 34 r then
            match quoted fuel (tail r) with Some (x, r') => more (TBytes x) r' | None => None end
          else if ((w =s "r") || (w =s "br")) && (starts_quote 34 r || starts_quote 35 r) then
            match raw_string r with
            | Some (x, r') => more (if w =s "r" then TStr x else TBytes x) r'
            | None => None
            end
          else more (word w) r
        else if is_digit c then let (w, r) := span is_word s in more (number w) r
        else if code c =? 34 then
          match quoted fuel t with Some (x, r) => more (TStr x) r | None => None end
        else if code c =? 39 then
          match char_lit t with
          | Some (x, r) => more (TChar x) r
          | None => let (_, r) := span is_word t in lex f r      (* a lifetime: dropped *)
          end
        else match punct puncts s with Some (q, r) => more (TP q) r | None => None end
      end
    end
  end.

(** attributes [#[...]] and the word [unsafe] are dropped *)
Fixpoint skip_brackets (depth : nat) (l : list tok) : list tok :=
  match l with
  | [] => []
  | TP QLBracket :: t => skip_brackets (S depth) t
  | TP QRBracket :: t => match depth with S (S d) => skip_brackets (S d) t | _ => t end
  | _ :: t => skip_brackets depth t
  end.
Fixpoint no_attributes (fuel : nat) (l : list tok) : list tok :=
  match fuel with
  | O => []
  | S f =>
    match l with
    | TP QHash :: TP QLBracket :: t => no_attributes f (skip_brackets 1 t)
    | TId w :: t => if w =s "unsafe" then no_attributes f t else TId w :: no_attributes f t
    | x :: t => x :: no_attributes f t
    | [] => []
    end
  end.

(** ** Syntax *)
Inductive ty :=
| TyName (path : list string) (args : list ty)
| TyRef (mut : bool) (t : ty)
| TyArray (t : ty) (len : N)
| TySlice (t : ty)
| TyTuple (l : list ty).

Inductive pat :=
| PWild
| PVar (x : string)
| PTuple (l : list pat)
| PCtor (path : list string) (l : list pat)
| PNum (n : N) | PCharacter (c : N) | PText (s : str).

Inductive unop := URef | URefMut | UDeref | UNot | UNeg.
Inductive bop := BAdd | BSub | BMul | BDiv | BRem | BShl | BShr | BAnd | BOr | BXor | BEq | BNe | BLt | BLe | BGt | BGe | BLand | BLor.

Inductive expr :=
| ENum (n : N) (suffix : string)
| EBool (b : bool)
| EText (s : str) | EBytes (s : str) | EChar (c : N) | EByte (c : N)
| EPath (p : list string)
| EField (e : expr) (f : string)
| EIndex (e i : expr)
| ECall (p : list string) (args : list expr)
| EApply (e : expr) (args : list expr)    (* a function that is the value of an expression *)
| EMethod (e : expr) (m : string) (args : list expr)
| EMacro (m : string) (args : list expr)
| EUn (o : unop) (e : expr)
| EBin (o : bop) (a b : expr)
| EAssign (o : option bop) (l r : expr)
| ECast (e : expr) (t : ty)
| ERange (incl : bool) (lo hi : option expr)
| EIf (c : expr) (t : list stmt) (e : option (list stmt))
| EIfLet (p : pat) (c : expr) (t : list stmt) (e : option (list stmt))
| EMatch (e : expr) (arms : list (list pat * option expr * expr))
| EWhile (c : expr) (b : list stmt)
| EWhileLet (p : pat) (c : expr) (b : list stmt)
| ELoop (b : list stmt)
| EFor (p : pat) (e : expr) (b : list stmt)
| EBlock (b : list stmt)
| EReturn (e : option expr)
| EBreak | EContinue
| ETry (e : expr)
| ETuple (l : list expr)
| EArray (l : list expr)
| EStruct (p : list string) (fs : list (string * expr))
| EUpdate (p : list string) (fs : list (string * expr)) (base : expr)    (* [.. base] *)
| EMap (e : expr) (p : pat) (b : expr)    (* [e.map(|p| b)] *)
| EClosure (ps : list pat) (e : expr)
| EWith (e : expr) (m : string) (pre : list expr) (ps : list pat) (b : expr)    (* [e.m(pre, |ps| b)] *)
| EMatches (e : expr) (qs : list pat)
(* [match m.entry(k) { Entry::Occupied(x) => a, Entry::Vacant(y) => b }] and [m.entry(k).or_insert(v)] *)
| EEntry (m k : expr) (x : string) (a : expr) (y : string) (b : expr)
| EOrInsert (m k v : expr)
| ETryInto (e : expr) (t : string)    (* the type the compiler infers *)
with stmt :=
| SLet (p : pat) (t : option ty) (e : option expr)
| SBorrow (x : string) (e : expr)    (* [let x = e.as_mut().expect(..);] *)
| SRef (x : string) (e : expr)       (* [let x = &mut e;] *)
| SRefIf (x : string) (c a b : expr)    (* [let x = if c { &mut a } else { &mut b };] *)
| SRefEntry (x : string) (m k e : expr)    (* [let x = m.entry(k).or_insert_with(f);], [e] being [f()] *)
| SExpr (e : expr)          (* followed by a semicolon, or a block in the middle *)
| SLast (e : expr).         (* the value of the block *)

Record fndef := Fn { fn_owner : option string; fn_name : string; fn_params : list (string * ty); fn_ret : ty; fn_body : list stmt }.
Inductive item :=
| IFn (f : fndef)
| IConst (owner : option string) (x : string) (t : ty) (e : expr)
| IStruct (x : string) (fs : list (string * ty))
| IAlias (owner : option string) (x y : string)
| INone.

(** ** Parser *)
Definition P (A : Type) := option (A * list tok).
Local Notation "'get' x ',' t ':=' e 'in' k" := (match e with Some (x, t) => k | None => None end)
  (at level 200, x name, t name, e at level 100, k at level 200, right associativity).

Definition expect_p (q : pc) (l : list tok) : option (list tok) :=
  match l with TP x :: t => if pc_beq x q then Some t else None | _ => None end.
Local Notation "'tok!' q ',' t ':=' e 'in' k" := (match expect_p q e with Some t => k | None => None end)
  (at level 200, q at level 10, t name, e at level 100, k at level 200, right associativity).

(** precedence of a binary operator: larger binds tighter *)
Definition prec (q : pc) : option (nat * bop) :=
  match q with
  | QStar => Some (11%nat, BMul) | QSlash => Some (11%nat, BDiv) | QPercent => Some (11%nat, BRem)
  | QPlus => Some (10%nat, BAdd) | QMinus => Some (10%nat, BSub)
  | QLtLt => Some (9%nat, BShl) | QGtGt => Some (9%nat, BShr)
  | QAmp => Some (8%nat, BAnd) | QCaret => Some (7%nat, BXor) | QBar => Some (6%nat, BOr)
  | QEqEq => Some (5%nat, BEq) | QBangEq => Some (5%nat, BNe) | QLt => Some (5%nat, BLt)
  | QLtEq => Some (5%nat, BLe) | QGt => Some (5%nat, BGt) | QGtEq => Some (5%nat, BGe)
  | QAmpAmp => Some (4%nat, BLand) | QBarBar => Some (3%nat, BLor)
  | _ => None
  end.
Definition assign_op (q : pc) : option (option bop) :=
  match q with
  | QEq => Some None
  | QPlusEq => Some (Some BAdd) | QMinusEq => Some (Some BSub) | QStarEq => Some (Some BMul) | QSlashEq => Some (Some BDiv) | QPercentEq => Some (Some BRem)
  | QAmpEq => Some (Some BAnd) | QBarEq => Some (Some BOr) | QCaretEq => Some (Some BXor) | QShlEq => Some (Some BShl) | QShrEq => Some (Some BShr)
  | _ => None
  end.

(** [::]-separated names *)
Fixpoint p_path_rest (fuel : nat) (l : list tok) : P (list string) :=
  match fuel with
  | O => None
  | S f =>
    match l with
    | TP QColons :: TId x :: t => get r, t' := p_path_rest f t in Some (x :: r, t')
    | _ => Some ([], l)
    end
  end.

Fixpoint p_ty (fuel : nat) (l : list tok) {struct fuel} : P ty :=
  match fuel with
  | O => None
  | S f =>
    match l with
    | TP QAmp :: TK K_mut :: t => get x, t' := p_ty f t in Some (TyRef true x, t')
    | TP QAmp :: t => get x, t' := p_ty f t in Some (TyRef false x, t')
    | TP QLBracket :: t =>
      get x, t' := p_ty f t in
      match t' with
      | TP QSemi :: TNum n _ :: TP QRBracket :: r => Some (TyArray x n, r)
      | TP QRBracket :: r => Some (TySlice x, r)
      | _ => None
      end
    | TP QLParen :: t => get xs, t' := p_tys f QRParen t in Some (TyTuple xs, t')
    | TP QStar :: TK K_mut :: t => p_ty f t
    | TK K_impl :: t => p_ty f t
    | TK K_dyn :: t => p_ty f t
    | TId x :: t =>
      get r, t1 := p_path_rest f t in
      match t1 with
      | TP QLt :: t2 => get xs, t3 := p_tys f QGt t2 in Some (TyName (x :: r) xs, t3)
      | _ => Some (TyName (x :: r) [], t1)
      end
    | _ => None
    end
  end
with p_tys (fuel : nat) (close : pc) (l : list tok) {struct fuel} : P (list ty) :=
  match fuel with
  | O => None
  | S f =>
    match l with
    | TP q :: t =>
      if pc_beq q close then Some ([], t)
      else if pc_beq q QGtGt && pc_beq close QGt then Some ([], TP QGt :: t)
      else if pc_beq q QComma then p_tys f close t
      else get x, t1 := p_ty f l in get xs, t2 := p_tys f close t1 in Some (x :: xs, t2)
    | _ => get x, t1 := p_ty f l in get xs, t2 := p_tys f close t1 in Some (x :: xs, t2)
    end
  end.

Definition is_upper (x : string) : bool := match x with String c _ => between_c 65 90 c | EmptyString => false end.

Fixpoint p_pat (fuel : nat) (l : list tok) {struct fuel} : P pat :=
  match fuel with
  | O => None
  | S f =>
    match l with
    | TP QAmp :: TK K_mut :: t => p_pat f t
    | TP QAmp :: t => p_pat f t
    | TP QLParen :: t => get xs, t' := p_pats f t in Some (PTuple xs, t')
    | TNum n _ :: t => Some (PNum n, t)
    | TByte n :: t => Some (PNum n, t)
    | TChar n :: t => Some (PCharacter n, t)
    | TStr x :: t => Some (PText x, t)
    | TK K_under :: t => Some (PWild, t)
    | TK K_mut :: TId x :: t => Some (PVar x, t)
    | TK K_ref :: TId x :: t => Some (PVar x, t)
    | TId x :: t =>
      get r, t1 := p_path_rest f t in
      match t1 with
      | TP QLParen :: t2 => get xs, t3 := p_pats f t2 in Some (PCtor (x :: r) xs, t3)
      | _ => if is_upper x then Some (PCtor (x :: r) [], t1) else Some (PVar x, t1)
      end
    | _ => None
    end
  end
with p_pats (fuel : nat) (l : list tok) {struct fuel} : P (list pat) :=
  match fuel with
  | O => None
  | S f =>
    match l with
    | TP QRParen :: t => Some ([], t)
    | TP QComma :: t => p_pats f t
    | _ => get x, t1 := p_pat f l in get xs, t2 := p_pats f t1 in Some (x :: xs, t2)
    end
  end.

(** does an expression of this shape end a statement without a semicolon? *)
Definition blocklike (e : expr) : bool :=
  match e with
  | EIf _ _ _ | EIfLet _ _ _ _ | EMatch _ _ | EEntry _ _ _ _ _ _ | EWhile _ _ | EWhileLet _ _ _ | ELoop _ | EFor _ _ _ | EBlock _ => true
  | _ => false
  end.

Fixpoint p_closure_params (fuel : nat) (l : list tok) : P (list pat) :=
  match fuel with
  | O => None
  | S f =>
    match l with
    | TP QBar :: t => Some ([], t)
    | TP QComma :: t => p_closure_params f t
    | _ => get x, t1 := p_pat f l in get xs, t2 := p_closure_params f t1 in Some (x :: xs, t2)
    end
  end.
(** The parsers of expressions, each given those with less fuel; [m] is the least precedence
    wanted, [ns] forbids a struct literal. *)
Record parsers := Parsers {
  expr_ : bool -> list tok -> P expr;
  bin_ : nat -> bool -> list tok -> P expr;
  bin_rest_ : nat -> bool -> expr -> list tok -> P expr;
  unary_ : bool -> list tok -> P expr;
  post_ : bool -> expr -> list tok -> P expr;
  exprs_ : pc -> list tok -> P (list expr);
  atom_ : bool -> list tok -> P expr;
  fields_ : list tok -> P (list (string * expr));
  if_ : list tok -> P expr;
  else_ : list tok -> P (option (list stmt));
  arms_ : list tok -> P (list (list pat * option expr * expr));
  alts_ : list tok -> P (list pat);
  block_ : list tok -> P (list stmt);
  stmts_ : list tok -> P (list stmt) }.
Definition p_expr (R : parsers) (f : nat) (ns : bool) (l : list tok) : P expr :=
    match l with
    | TK K_return :: TP QSemi :: t => Some (EReturn None, TP QSemi :: t)
    | TK K_return :: t => get x, t1 := expr_ R ns t in Some (EReturn (Some x), t1)
    | TK K_break :: t => Some (EBreak, t)
    | TK K_continue :: t => Some (EContinue, t)
    | TP QBarBar :: t => get x, t1 := expr_ R ns t in Some (EClosure [] x, t1)
    | TP QBar :: t => get ps, t1 := p_closure_params f t in get x, t2 := expr_ R ns t1 in Some (EClosure ps x, t2)
    | TP QDotDot :: t => get x, t1 := bin_ R 3 ns t in Some (ERange false None (Some x), t1)
    | _ =>
      get a, t1 := bin_ R 3 ns l in
      match t1 with
      | TP QDotDot :: TP QRBracket :: t2 => Some (ERange false (Some a) None, TP QRBracket :: t2)
      | TP QDotDot :: TP QRParen :: t2 => Some (ERange false (Some a) None, TP QRParen :: t2)
      | TP QDotDot :: t2 => get b, t3 := bin_ R 3 ns t2 in Some (ERange false (Some a) (Some b), t3)
      | TP QDotDotEq :: t2 => get b, t3 := bin_ R 3 ns t2 in Some (ERange true (Some a) (Some b), t3)
      | TP q :: t2 =>
        match assign_op q with
        | Some o => get b, t3 := expr_ R ns t2 in Some (EAssign o a b, t3)
        | None => Some (a, t1)
        end
      | _ => Some (a, t1)
      end
    end.
Definition p_bin (R : parsers) (f : nat) (m : nat) (ns : bool) (l : list tok) : P expr :=
 get a, t := unary_ R ns l in bin_rest_ R m ns a t.
Definition p_bin_rest (R : parsers) (f : nat) (m : nat) (ns : bool) (a : expr) (l : list tok) : P expr :=
    match l with
    | TK K_as :: t => get x, t1 := p_ty f t in bin_rest_ R m ns (ECast a x) t1
    | TP q :: t =>
      match prec q with
      | Some (n, o) =>
        if (m <=? n)%nat then get b, t1 := bin_ R (S n) ns t in bin_rest_ R m ns (EBin o a b) t1
        else Some (a, l)
      | None => Some (a, l)
      end
    | _ => Some (a, l)
    end.
Definition p_unary (R : parsers) (f : nat) (ns : bool) (l : list tok) : P expr :=
    match l with
    | TP QBang :: t => get x, t1 := unary_ R ns t in Some (EUn UNot x, t1)
    | TP QMinus :: t => get x, t1 := unary_ R ns t in Some (EUn UNeg x, t1)
    | TP QStar :: t => get x, t1 := unary_ R ns t in Some (EUn UDeref x, t1)
    | TP QAmp :: TK K_mut :: t => get x, t1 := unary_ R ns t in Some (EUn URefMut x, t1)
    | TP QAmp :: t => get x, t1 := unary_ R ns t in Some (EUn URef x, t1)
    | TP QAmpAmp :: t => get x, t1 := unary_ R ns t in Some (EUn URef (EUn URef x), t1)
    | _ => get x, t := atom_ R ns l in post_ R ns x t
    end.
Definition method (e : expr) (m : string) (xs : list expr) : expr :=
  match List.rev xs with
  | EClosure ps b :: pre =>
    match pre, ps with
    | [], [q] => if m =s "map" then EMap e q b else EWith e m [] ps b
    | _, _ => EWith e m (List.rev pre) ps b
    end
  | _ =>
    match e, xs with
    | EMethod e' n [k], [v] => if (n =s "entry") && (m =s "or_insert") then EOrInsert e' k v else EMethod e m xs
    | _, _ => EMethod e m xs
    end
  end.
Definition is_path (x y : string) (l : list string) : bool := match l with [a; b] => (a =s x) && (b =s y) | _ => false end.
Definition match_ (e : expr) (l : list (list pat * option expr * expr)) : expr :=
  match e, l with
  | EMethod m n [k], [([PCtor p [PVar x]], None, a); ([PCtor q [PVar y]], None, b)] =>
    if (n =s "entry") && is_path "Entry" "Occupied" p && is_path "Entry" "Vacant" q then EEntry m k x a y b else EMatch e l
  | _, _ => EMatch e l
  end.
Definition p_post (R : parsers) (f : nat) (ns : bool) (e : expr) (l : list tok) : P expr :=
    match l with
    | TP QQuest :: t => post_ R ns (ETry e) t
    | TP QLBracket :: t => get i, t1 := expr_ R false t in tok! QRBracket, t2 := t1 in post_ R ns (EIndex e i) t2
    | TP QLParen :: t => get xs, t1 := exprs_ R QRParen t in post_ R ns (EApply e xs) t1
    | TP QDot :: TId m :: TP QLParen :: t => get xs, t1 := exprs_ R QRParen t in post_ R ns (method e m xs) t1
    | TP QDot :: TId m :: TP QColons :: TP QLt :: t =>
      get _ts, t1 := p_tys f QGt t in tok! QLParen, t2 := t1 in
      get xs, t3 := exprs_ R QRParen t2 in post_ R ns (EMethod e m xs) t3
    | TP QDot :: TId m :: t => post_ R ns (EField e m) t
    | TP QDot :: TNum n _ :: t => post_ R ns (EField e (if n =? 0 then "0" else "1")) t
    | _ => Some (e, l)
    end.
Definition p_exprs (R : parsers) (f : nat) (close : pc) (l : list tok) : P (list expr) :=
    match l with
    | TP q :: t =>
      if pc_beq q close then Some ([], t)
      else if pc_beq q QComma then exprs_ R close t
      else get x, t1 := expr_ R false l in get xs, t2 := exprs_ R close t1 in Some (x :: xs, t2)
    | _ => get x, t1 := expr_ R false l in get xs, t2 := exprs_ R close t1 in Some (x :: xs, t2)
    end.
Definition p_atom (R : parsers) (f : nat) (ns : bool) (l : list tok) : P expr :=
    match l with
    | TNum n s :: t => Some (ENum n s, t)
    | TStr s :: t => Some (EText s, t)
    | TBytes s :: t => Some (EBytes s, t)
    | TChar c :: t => Some (EChar c, t)
    | TByte c :: t => Some (EByte c, t)
    | TK K_true :: t => Some (EBool true, t)
    | TK K_false :: t => Some (EBool false, t)
    | TP QLParen :: t =>
      match t with
      | TP QRParen :: t1 => Some (ETuple [], t1)
      | _ =>
        get x, t1 := expr_ R false t in
        match t1 with
        | TP QRParen :: t2 => Some (x, t2)
        | TP QComma :: t2 => get xs, t3 := exprs_ R QRParen t2 in Some (ETuple (x :: xs), t3)
        | _ => None
        end
      end
    | TP QLBracket :: t => get xs, t1 := exprs_ R QRBracket t in Some (EArray xs, t1)
    | TP QLBrace :: t => get b, t1 := stmts_ R t in Some (EBlock b, t1)
    | TK K_if :: t => if_ R t
    | TK K_match :: t =>
      get x, t1 := expr_ R true t in tok! QLBrace, t2 := t1 in
      get arms, t3 := arms_ R t2 in Some (match_ x arms, t3)
    | TK K_while :: TK K_let :: t =>
      get p, t1 := p_pat f t in tok! QEq, t2 := t1 in get x, t3 := expr_ R true t2 in
      get b, t4 := block_ R t3 in Some (EWhileLet p x b, t4)
    | TK K_while :: t => get x, t1 := expr_ R true t in get b, t2 := block_ R t1 in Some (EWhile x b, t2)
    | TK K_loop :: t => get b, t1 := block_ R t in Some (ELoop b, t1)
    | TK K_for :: t =>
      get p, t1 := p_pat f t in
      match t1 with
      | TK K_in :: t2 => get x, t3 := expr_ R true t2 in get b, t4 := block_ R t3 in Some (EFor p x b, t4)
      | _ => None
      end
    | TId m :: TP QBang :: TP QLParen :: t =>
      if m =s "matches" then
        get x, t1 := expr_ R false t in tok! QComma, t2 := t1 in get qs, t3 := alts_ R t2 in tok! QRParen, t4 := t3 in Some (EMatches x qs, t4)
      else get xs, t1 := exprs_ R QRParen t in Some (EMacro m xs, t1)
    | TId m :: TP QBang :: TP QLBracket :: t => get xs, t1 := exprs_ R QRBracket t in Some (EMacro m xs, t1)
    | TId m :: TP QBang :: TP QLBrace :: t => get xs, t1 := exprs_ R QRBrace t in Some (EMacro m xs, t1)
    | TId x :: t =>
      get r, t1 := p_path_rest f t in
      match t1 with
      | TP QLParen :: t2 => get xs, t3 := exprs_ R QRParen t2 in Some (ECall (x :: r) xs, t3)
      | TP QColons :: TP QLt :: t2 =>
        get _ts, t3 := p_tys f QGt t2 in get r', t3' := p_path_rest f t3 in tok! QLParen, t4 := t3' in
        get xs, t5 := exprs_ R QRParen t4 in Some (ECall (x :: r ++ r') xs, t5)
      | TP QLBrace :: t2 =>
        if ns || negb (is_upper (List.last r x)) then Some (EPath (x :: r), t1)
        else get fs, t3 := fields_ R t2 in
             match List.rev fs with
             | ("..", b) :: fs' => Some (EUpdate (x :: r) (List.rev fs') b, t3)
             | _ => Some (EStruct (x :: r) fs, t3)
             end
      | _ => Some (EPath (x :: r), t1)
      end
    | _ => None
    end.
Definition p_fields (R : parsers) (f : nat) (l : list tok) : P (list (string * expr)) :=
    match l with
    | TP QRBrace :: t => Some ([], t)
    | TP QComma :: t => fields_ R t
    | TId x :: TP QColon :: t => get e, t1 := expr_ R false t in get fs, t2 := fields_ R t1 in Some ((x, e) :: fs, t2)
    | TId x :: t => get fs, t1 := fields_ R t in Some ((x, EPath [x]) :: fs, t1)
    | TP QDotDot :: t => get e, t1 := expr_ R false t in tok! QRBrace, t2 := t1 in Some ([("..", e)], t2)
    | _ => None
    end.
Definition p_if (R : parsers) (f : nat) (l : list tok) : P expr :=
    match l with
    | TK K_let :: t =>
      get p, t1 := p_pat f t in tok! QEq, t2 := t1 in get x, t3 := expr_ R true t2 in
      get b, t4 := block_ R t3 in get e, t5 := else_ R t4 in Some (EIfLet p x b e, t5)
    | _ => get x, t1 := expr_ R true l in get b, t2 := block_ R t1 in get e, t3 := else_ R t2 in Some (EIf x b e, t3)
    end.
Definition p_else (R : parsers) (f : nat) (l : list tok) : P (option (list stmt)) :=
    match l with
    | TK K_else :: TK K_if :: t => get x, t1 := if_ R t in Some (Some [SLast x], t1)
    | TK K_else :: t => get b, t1 := block_ R t in Some (Some b, t1)
    | _ => Some (None, l)
    end.
(** no [mut] in the pattern of an arm *)
Fixpoint immutable (l : list tok) : bool :=
  match l with [] => true | TP QFatArrow :: _ => true | TK K_mut :: _ => false | _ :: t => immutable t end.
Definition p_arms (R : parsers) (f : nat) (l : list tok) : P (list (list pat * option expr * expr)) :=
    match l with
    | TP QRBrace :: t => Some ([], t)
    | TP QComma :: t => arms_ R t
    | _ =>
      if negb (immutable l) then None else
      get ps, t1 := alts_ R l in
      match t1 with
      | TK K_if :: t2 =>
        get g, t3 := expr_ R false t2 in tok! QFatArrow, t4 := t3 in get x, t5 := expr_ R false t4 in
        get r, t6 := arms_ R t5 in Some ((ps, Some g, x) :: r, t6)
      | _ => tok! QFatArrow, t4 := t1 in get x, t5 := expr_ R false t4 in get r, t6 := arms_ R t5 in Some ((ps, None, x) :: r, t6)
      end
    end.
Definition p_alts (R : parsers) (f : nat) (l : list tok) : P (list pat) :=
    get p, t := p_pat f l in
    match t with
    | TP QBar :: t1 => get ps, t2 := alts_ R t1 in Some (p :: ps, t2)
    | _ => Some ([p], t)
    end.
Definition p_block (R : parsers) (f : nat) (l : list tok) : P (list stmt) :=
 tok! QLBrace, t := l in stmts_ R t.
Definition let_ (q : pat) (y : option ty) (e : option expr) : stmt :=
  match q, y, e with
  | PVar x, None, Some (EMethod (EMethod e' m []) n [_]) => if (m =s "as_mut") && (n =s "expect") then SBorrow x e' else SLet q y e
  | PVar x, None, Some (EMethod (EMethod e' m [k]) n [EPath f]) => if (m =s "entry") && (n =s "or_insert_with") then SRefEntry x e' k (ECall f []) else SLet q y e
  | PVar x, None, Some (EUn URefMut e') => SRef x e'
  | PVar x, None, Some (EIf c [SLast (EUn URefMut a)] (Some [SLast (EUn URefMut b)])) => SRefIf x c a b
  | PVar x, Some (TyName [o] [TyRef true _]), Some (EMethod e' m []) => if (o =s "Pin") && (m =s "as_mut") then SRef x e' else SLet q y e
  | PVar x, Some (TyName [o] [TyRef true _]), Some (ECall f [EUn URefMut e']) => if (o =s "Pin") && is_path "Pin" "as_mut" f then SRef x e' else SLet q y e
  | _, _, _ => SLet q y e
  end.
Definition p_stmts (R : parsers) (f : nat) (l : list tok) : P (list stmt) :=
    match l with
    | TP QRBrace :: t => Some ([], t)
    | TP QSemi :: t => stmts_ R t
    | TK K_let :: t =>
      get p, t1 := p_pat f t in
      get y, t2 := match t1 with TP QColon :: t2 => get y, t3 := p_ty f t2 in Some (Some y, t3) | _ => Some (None, t1) end in
      get e, t3 := match t2 with TP QEq :: t3 => get e, t4 := expr_ R false t3 in Some (Some e, t4) | _ => Some (None, t2) end in
      tok! QSemi, t4 := t3 in get r, t5 := stmts_ R t4 in Some (let_ p y e :: r, t5)
    | _ =>
      get e, t1 := (match l with
                    | TK K_if :: _ | TK K_match :: _ | TK K_while :: _ | TK K_loop :: _ | TK K_for :: _ | TP QLBrace :: _ =>
                      get e, t1 := atom_ R false l in
                      match t1 with TP QDot :: _ | TP QQuest :: _ => get e', t2 := post_ R false e t1 in bin_rest_ R 3 false e' t2 | _ => Some (e, t1) end
                    | _ => expr_ R false l
                    end) in
      match t1 with
      | TP QSemi :: t2 => get r, t3 := stmts_ R t2 in Some (SExpr e :: r, t3)
      | TP QRBrace :: t2 => Some ([SLast e], t2)
      | _ => if blocklike e then get r, t3 := stmts_ R t1 in Some (SExpr e :: r, t3) else None
      end
    end.
Fixpoint parsers_at (fuel : nat) : parsers :=
  match fuel with
  | O => Parsers (fun _ _ => None) (fun _ _ _ => None) (fun _ _ _ _ => None) (fun _ _ => None) (fun _ _ _ => None) (fun _ _ => None) (fun _ _ => None) (fun _ => None) (fun _ => None) (fun _ => None) (fun _ => None) (fun _ => None) (fun _ => None) (fun _ => None)
  | S f => let R := parsers_at f in Parsers (p_expr R f) (p_bin R f) (p_bin_rest R f) (p_unary R f) (p_post R f) (p_exprs R f) (p_atom R f) (p_fields R f) (p_if R f) (p_else R f) (p_arms R f) (p_alts R f) (p_block R f) (p_stmts R f)
  end.

(** skip a balanced group after its opening bracket *)
Fixpoint skip_group (depth : nat) (l : list tok) : list tok :=
  match l with
  | [] => []
  | TP QLBrace :: t => skip_group (S depth) t
  | TP QRBrace :: t => match depth with S (S d) => skip_group (S d) t | _ => t end
  | _ :: t => skip_group depth t
  end.
Fixpoint skip_to (q : pc) (l : list tok) : list tok :=
  match l with
  | [] => []
  | TP x :: t => if pc_beq x q then t else skip_to q t
  | _ :: t => skip_to q t
  end.
(** generics after [<] *)
Fixpoint skip_angles (depth : nat) (l : list tok) : list tok :=
  match l with
  | [] => []
  | TP QLt :: t => skip_angles (S depth) t
  | TP QGt :: t => match depth with S (S d) => skip_angles (S d) t | _ => t end
  | TP QGtGt :: t => match depth with S (S (S d)) => skip_angles (S d) t | _ => t end
  | _ :: t => skip_angles depth t
  end.
(** a [where] clause: up to the body *)
Fixpoint skip_where (l : list tok) : list tok :=
  match l with
  | TP QLBrace :: _ => l
  | _ :: t => skip_where t
  | [] => []
  end.

(** a parameter without a type is [self] *)
Fixpoint p_params (fuel : nat) (l : list tok) : P (list (string * ty)) :=
  match fuel with
  | O => None
  | S f =>
    match l with
    | TP QRParen :: t => Some ([], t)
    | TP QComma :: t => p_params f t
    | TK K_mut :: TId x :: TP QColon :: t => get y, t1 := p_ty f t in get r, t2 := p_params f t1 in Some ((x, y) :: r, t2)
    | TId x :: TP QColon :: t => get y, t1 := p_ty f t in get r, t2 := p_params f t1 in Some ((x, y) :: r, t2)
    | TP QAmp :: TK K_mut :: TId x :: t => get r, t1 := p_params f t in Some ((x, TyRef true (TyName ["Self"] [])) :: r, t1)
    | TP QAmp :: TId x :: t => get r, t1 := p_params f t in Some ((x, TyRef false (TyName ["Self"] [])) :: r, t1)
    | TK K_mut :: TId x :: t => get r, t1 := p_params f t in Some ((x, TyName ["Self"] []) :: r, t1)
    | TId x :: t => get r, t1 := p_params f t in Some ((x, TyName ["Self"] []) :: r, t1)
    | _ => None
    end
  end.
Definition p_fn (R : parsers) (fuel : nat) (owner : option string) (l : list tok) : P item :=
  match l with
  | TId x :: t =>
    let t1 := match t with TP QLt :: r => skip_angles 1 r | _ => t end in
    tok! QLParen, t2 := t1 in
    get ps, t3 := p_params fuel t2 in
    get r, t4 := match t3 with TP QArrow :: t4 => p_ty fuel t4 | _ => Some (TyTuple [], t3) end in
    get b, t5 := block_ R (skip_where t4) in
    Some (IFn (Fn owner x ps r b), t5)
  | _ => None
  end.
Fixpoint p_struct_fields (fuel : nat) (l : list tok) : P (list (string * ty)) :=
  match fuel with
  | O => None
  | S f =>
    match l with
    | TP QRBrace :: t => Some ([], t)
    | TP QComma :: t => p_struct_fields f t
    | TK K_pub :: TP QLParen :: t => p_struct_fields f (skip_to QRParen t)
    | TK K_pub :: t => p_struct_fields f t
    | TId x :: TP QColon :: t => get y, t1 := p_ty f t in get r, t2 := p_struct_fields f t1 in Some ((x, y) :: r, t2)
    | _ => None
    end
  end.
(** a type has a [from] for each [From<x>]: the type is part of its name *)
Definition of_trait (a : ty) (i : item) : item :=
  match a, i with
  | TyName [t] [TyName [x] []], IFn f =>
    if (t =s "From") || (t =s "TryFrom") then IFn (Fn (fn_owner f) (fn_name f ++ "<" ++ x ++ ">") (fn_params f) (fn_ret f) (fn_body f)) else i
  | _, _ => i
  end.
(** [bitflags!]: a struct with one field, its constants (functions without parameters) and the
    functions of the crate [bitflags] that are used *)
Fixpoint p_flags (fuel : nat) (l : list tok) : P (list (string * N)) :=
  match fuel with
  | O => None
  | S f =>
    match l with
    | TP QRBrace :: t => Some ([], t)
    | TK K_const :: TId x :: TP QEq :: TNum n _ :: TP QSemi :: t => get r, t1 := p_flags f t in Some ((x, n) :: r, t1)
    | _ => None
    end
  end.
Definition flag_items (x w : string) (cs : list (string * N)) : list item :=
  let self_ := EField (EPath ["self"]) "bits" in
  let other := EField (EPath ["other"]) "bits" in
  let me := TyName ["Self"] [] in
  let make e := EStruct ["Self"] [("bits", e)] in
  let all := ENum (fold_right (fun c a => N.lor (snd c) a) 0 cs) w in
  let fn n ps r e := IFn (Fn (Some x) n ps r [SLast e]) in
  IStruct x [("bits", TyName [w] [])]
  :: map (fun c => fn (fst c) [] me (make (ENum (snd c) w))) cs
  ++ [fn "contains" [("self", TyRef false me); ("other", me)] (TyName ["bool"] []) (EBin BEq (EBin BAnd self_ other) other);
      fn "bitor" [("self", me); ("other", me)] me (make (EBin BOr self_ other));
      fn "bitand" [("self", me); ("other", me)] me (make (EBin BAnd self_ other));
      fn "not" [("self", me)] me (make (EBin BAnd (EUn UNot self_) all));
      fn "is_empty" [("self", TyRef false me)] (TyName ["bool"] []) (EBin BEq self_ (ENum 0 w))].
(** the items of a file, or of an [impl] up to its closing brace *)
Fixpoint p_items (R : parsers) (fuel : nat) (owner : option string) (l : list tok) : P (list item) :=
  match fuel with
  | O => None
  | S f =>
    match l with
    | [] => Some ([], [])
    | TP QRBrace :: t => Some ([], t)
    | TK K_pub :: TP QLParen :: t => p_items R f owner (skip_to QRParen t)
    | TK K_pub :: t => p_items R f owner t
    | TK K_use :: t => p_items R f owner (skip_to QSemi t)
    | TK K_mod :: TId _ :: TP QSemi :: t => p_items R f owner t
    | TK K_mod :: TId _ :: TP QLBrace :: t => p_items R f owner (skip_group 1 t)
    | TK K_type :: TId x :: TP QEq :: t =>
      get y, t1 := p_ty f t in get r, t2 := p_items R f owner (skip_to QSemi t1) in
      Some (match y with TyName y' _ => IAlias owner x (List.last y' "") :: r | _ => r end, t2)
    | TK K_type :: t => p_items R f owner (skip_to QSemi t)
    | TId m :: TP QBang :: TP QLBrace :: t =>
      let t0 := match t with TK K_pub :: TP QLParen :: r => skip_to QRParen r | TK K_pub :: r => r | _ => t end in
      match t0 with
      | TK K_struct :: TId x :: TP QColon :: TId w :: TP QLBrace :: t1 =>
        if m =s "bitflags" then
          get cs, t2 := p_flags f t1 in tok! QRBrace, t3 := t2 in get r, t4 := p_items R f owner t3 in Some ((flag_items x w cs ++ r)%list, t4)
        else None
      | _ => None
      end
    | TK K_const :: TId x :: TP QColon :: t =>
      get y, t1 := p_ty f t in tok! QEq, t2 := t1 in get e, t3 := expr_ R false t2 in tok! QSemi, t4 := t3 in
      get r, t5 := p_items R f owner t4 in Some (IConst owner x y e :: r, t5)
    | TK K_struct :: TId x :: TP QLt :: t => p_items R f owner (TK K_struct :: TId x :: skip_angles 1 t)
    | TK K_struct :: TId x :: TP QSemi :: t => get r, t1 := p_items R f owner t in Some (IStruct x [] :: r, t1)
    | TK K_struct :: TId x :: TP QLBrace :: t => get fs, t1 := p_struct_fields f t in get r, t2 := p_items R f owner t1 in Some (IStruct x fs :: r, t2)
    | TK K_enum :: TId _ :: TP QLBrace :: t => p_items R f owner (skip_group 1 t)
    | TK K_trait :: t => p_items R f owner (match skip_where t with _ :: r => skip_group 1 r | [] => [] end)
    | TK K_fn :: t => get x, t1 := p_fn R f owner t in get r, t2 := p_items R f owner t1 in Some (x :: r, t2)
    | TK K_impl :: t =>
      let t0 := match t with TP QLt :: r => skip_angles 1 r | _ => t end in
      get a, t1 := p_ty f t0 in
      get b, t2 := match t1 with TK K_for :: t2 => p_ty f t2 | _ => Some (a, t1) end in
      match (match b with TyRef _ b' => b' | _ => b end) with
      | TyName p _ =>
        tok! QLBrace, t3 := skip_where t2 in
        get xs, t4 := p_items R f (Some (List.last p "")) t3 in
        get r, t5 := p_items R f owner t4 in Some ((map (of_trait a) xs ++ r)%list, t5)
      | _ => None
      end
    | _ => None
    end
  end.

Definition parse (s : string) : option (list item) :=
  let n := String.length s in
  match lex (S n) s with
  | None => None
  | Some l =>
    match p_items (parsers_at (S n)) (S n) None (no_attributes (S n) l) with
    | Some (is, []) => Some is
    | _ => None
    end
  end.
