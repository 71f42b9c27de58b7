(** * Syntax of the part of Python used by the methods of SortedList, and a parser

    The text of the methods (SourceText.v) is turned into the trees below by a
    program, not by hand.  The subset: names, integers, strings, attributes,
    calls, subscripts and slices, arithmetic, chains of comparisons, [not],
    [and], [or], tuples, lists, generator expressions as the only argument of a
    call; assignments, augmented assignments, [del], [if]/[elif]/[else],
    [while], [for], [return], [raise], [assert], [pass].
    Simplifications: no triple-quoted strings (docstrings are left out of the
    text), no keyword arguments in calls, no [try], [with], [lambda], [yield]. *)
From Coq Require Import String Ascii List ZArith Bool.
Import ListNotations.
Local Open Scope string_scope.
Local Open Scope list_scope.

Inductive bop : Set := Oadd | Osub | Omul | Opow | Oshl | Oshr | Oand.
Inductive cop : Set := Qlt | Qle | Qgt | Qge | Qeq | Qne | Qis | Qisnot.

Inductive expr : Set :=
| ENone | EBool (b : bool) | ENum (z : Z) | EStr
| EName (x : string)
| EAttr (e : expr) (a : string)
| ECall (f : expr) (args : list expr)
| EIndex (e i : expr)
| ESlice (e : expr) (lo hi : option expr)
| EBin (o : bop) (a b : expr)
| ENeg (a : expr)
| ENot (a : expr)
| EAnd (a b : expr)
| EOr (a b : expr)
| ECmp (o : cop) (a b : expr)
| EChain (a : expr) (o1 : cop) (b : expr) (o2 : cop) (c : expr)
| ETuple (l : list expr)
| EList (l : list expr)
| EGen (elt : expr) (x : string) (it : expr).

Inductive stmt : Set :=
| SPass
| SSeq (a b : stmt)
| SExpr (e : expr)
| SAssign (t e : expr)
| SAug (t : expr) (o : bop) (e : expr)
| SDel (t : expr)
| SIf (c : expr) (a b : stmt)
| SWhile (c : expr) (b : stmt)
| SFor (t : expr) (it : expr) (b : stmt)
| SReturn (e : expr)
| SRaise (e : expr)
| SAssert (e : expr).

(** A method: its name, its parameters after [self] with their defaults, and its
    body.  An alias [_clear = clear] in the class body. *)
Inductive item : Set :=
| IDef (name : string) (params : list (string * option expr)) (body : stmt)
| IAlias (name target : string).

(** ** Tokens *)
Inductive token : Set :=
| TName (s : string) | TNum (z : Z) | TStr | TOp (s : string).

Definition code (a : ascii) : nat := nat_of_ascii a.
Definition between (lo hi n : nat) : bool := ((lo <=? n) && (n <=? hi))%nat.
Definition is_digit (a : ascii) : bool := between 48 57 (code a).
Definition is_alpha (a : ascii) : bool :=
  (between 65 90 (code a) || between 97 122 (code a) || Nat.eqb (code a) 95)%bool.
Definition ch (s : string) : ascii :=
  match s with String a _ => a | EmptyString => Ascii.zero end.
Definition is_ch (s : string) (a : ascii) : bool := Ascii.eqb (ch s) a.

(** The longest run of characters satisfying [p], and the rest. *)
Fixpoint take (p : ascii -> bool) (s : string) : string * string :=
  match s with
  | EmptyString => (EmptyString, EmptyString)
  | String a t =>
      if p a then let (x, r) := take p t in (String a x, r)
      else (EmptyString, s)
  end.

Fixpoint number (acc : Z) (s : string) : Z :=
  match s with
  | EmptyString => acc
  | String a t => number (acc * 10 + Z.of_nat (code a - 48))%Z t
  end.

(** After an opening quote: skip to the closing one. *)
Fixpoint after_quote (q : ascii) (s : string) : string :=
  match s with
  | EmptyString => EmptyString
  | String a t => if Ascii.eqb a q then t else after_quote q t
  end.

Definition ops2 : list string :=
  ["**"; "<<"; ">>"; "<="; ">="; "=="; "!="; "+="; "-="; "*="].

(** The operator at the head of [s]: two characters when they form one, else one. *)
Definition operator (s : string) : string * string :=
  match s with
  | String a (String b t) =>
      let two := String a (String b EmptyString) in
      if existsb (String.eqb two) ops2 then (two, t)
      else (String a EmptyString, String b t)
  | String a t => (String a EmptyString, t)
  | EmptyString => (EmptyString, EmptyString)
  end.

(** Tokens of one line; a comment ends it.  [f'...'] is a string: its
    replacement fields are not looked at. *)
Fixpoint tokens (fuel : nat) (s : string) : list token :=
  match fuel with
  | O => []
  | S n =>
      match s with
      | EmptyString => []
      | String a t =>
          if is_ch " " a then tokens n t
          else if is_ch "#" a then []
          else if is_ch "'" a then TStr :: tokens n (after_quote a t)
          else if is_digit a then
            let (d, r) := take is_digit s in TNum (number 0 d) :: tokens n r
          else if is_alpha a then
            let (x, r) := take (fun a => is_alpha a || is_digit a)%bool s in
            match r with
            | String q u =>
                if (String.eqb x "f" && is_ch "'" q)%bool
                then TStr :: tokens n (after_quote q u)
                else TName x :: tokens n r
            | EmptyString => [TName x]
            end
          else let (o, r) := operator s in TOp o :: tokens n r
      end
  end.

Definition newline : ascii := ascii_of_nat 10.

Fixpoint split_lines (s : string) : list string :=
  match s with
  | EmptyString => [EmptyString]
  | String a t =>
      let r := split_lines t in
      if Ascii.eqb a newline then EmptyString :: r
      else match r with
           | [] => [String a EmptyString]
           | x :: r' => String a x :: r'
           end
  end.

(** Leading spaces and the tokens of a line. *)
Definition line (s : string) : nat * list token :=
  let (sp, r) := take (is_ch " ") s in
  (String.length sp, tokens (S (String.length r)) r).

Definition is_op (x : string) (t : token) : bool :=
  match t with TOp y => String.eqb x y | _ => false end.
Definition opens (t : token) : bool := (is_op "(" t || is_op "[" t)%bool.
Definition closes (t : token) : bool := (is_op ")" t || is_op "]" t)%bool.

Fixpoint depth (d : nat) (l : list token) : nat :=
  match l with
  | [] => d
  | t :: r => depth (if opens t then S d else if closes t then d - 1 else d)%nat r
  end.

(** Logical lines: empty ones are dropped, and a line with an open bracket goes
    on with the next. *)
Fixpoint logical (acc : option (nat * list token)) (l : list (nat * list token))
    : list (nat * list token) :=
  match l with
  | [] => match acc with Some x => [x] | None => [] end
  | (i, ts) :: r =>
      match acc with
      | Some (j, us) =>
          let ws := us ++ ts in
          if Nat.eqb (depth 0 ws) 0 then (j, ws) :: logical None r
          else logical (Some (j, ws)) r
      | None =>
          match ts with
          | [] => logical None r
          | _ =>
              if Nat.eqb (depth 0 ts) 0 then (i, ts) :: logical None r
              else logical (Some (i, ts)) r
          end
      end
  end.

Definition lex (s : string) : list (nat * list token) :=
  logical None (map line (split_lines s)).

(** ** Expressions *)
Definition obind {A B} (x : option A) (f : A -> option B) : option B :=
  match x with Some a => f a | None => None end.
Notation "'let?' x ':=' m 'in' k" := (obind m (fun x => k))
  (at level 200, x pattern, m at level 100, k at level 200, right associativity).

(** Binary operators by level: [&] 4, shifts 5, [+] and [-] 6, [*] 7. *)
Definition bop_of (lvl : nat) (t : token) : option bop :=
  match t with
  | TOp o =>
      match lvl with
      | 4 => if String.eqb o "&" then Some Oand else None
      | 5 => if String.eqb o "<<" then Some Oshl
             else if String.eqb o ">>" then Some Oshr else None
      | 6 => if String.eqb o "+" then Some Oadd
             else if String.eqb o "-" then Some Osub else None
      | 7 => if String.eqb o "*" then Some Omul else None
      | _ => None
      end
  | _ => None
  end.

(** A comparison operator at the head of the tokens. *)
Definition cop_of (l : list token) : option (cop * list token) :=
  match l with
  | TName a :: TName b :: r =>
      if String.eqb a "is" then
        if String.eqb b "not" then Some (Qisnot, r) else Some (Qis, TName b :: r)
      else None
  | TOp o :: r =>
      if String.eqb o "<" then Some (Qlt, r)
      else if String.eqb o "<=" then Some (Qle, r)
      else if String.eqb o ">" then Some (Qgt, r)
      else if String.eqb o ">=" then Some (Qge, r)
      else if String.eqb o "==" then Some (Qeq, r)
      else if String.eqb o "!=" then Some (Qne, r)
      else None
  | _ => None
  end.

Definition name_is (x : string) (t : token) : bool :=
  match t with TName y => String.eqb x y | _ => false end.

(** One more operand of the tuple, list or argument list being read. *)
Definition eat (x : string) (l : list token) : option (list token) :=
  match l with t :: r => if is_op x t then Some r else None | [] => None end.

(** [pe n lvl]: an expression of level [lvl]: [or] 0, [and] 1, [not] 2,
    comparisons 3, binary operators 4-7, unary minus 8, [**] 9, calls,
    subscripts and attributes 10. *)
Fixpoint pe (n lvl : nat) (t : list token) {struct n} : option (expr * list token) :=
  match n with
  | O => None
  | S n =>
      match lvl with
      | 0 =>
          let? (a, r) := pe n 1 t in
          match r with
          | h :: r' => if name_is "or" h
                       then let? (b, q) := pe n 0 r' in Some (EOr a b, q)
                       else Some (a, r)
          | [] => Some (a, r)
          end
      | 1 =>
          let? (a, r) := pe n 2 t in
          match r with
          | h :: r' => if name_is "and" h
                       then let? (b, q) := pe n 1 r' in Some (EAnd a b, q)
                       else Some (a, r)
          | [] => Some (a, r)
          end
      | 2 =>
          match t with
          | h :: r => if name_is "not" h
                      then let? (a, q) := pe n 2 r in Some (ENot a, q)
                      else pe n 3 t
          | [] => None
          end
      | 3 =>
          let? (a, r) := pe n 4 t in
          match cop_of r with
          | None => Some (a, r)
          | Some (o, r') =>
              let? (b, q) := pe n 4 r' in
              match cop_of q with
              | None => Some (ECmp o a b, q)
              | Some (o2, q') =>
                  let? (c, u) := pe n 4 q' in Some (EChain a o b o2 c, u)
              end
          end
      | 8 =>
          match t with
          | h :: r => if is_op "-" h
                      then let? (a, q) := pe n 8 r in Some (ENeg a, q)
                      else pe n 9 t
          | [] => None
          end
      | 9 =>
          let? (a, r) := pe n 10 t in
          match r with
          | h :: r' => if is_op "**" h
                       then let? (b, q) := pe n 8 r' in Some (EBin Opow a b, q)
                       else Some (a, r)
          | [] => Some (a, r)
          end
      | 10 =>
          match t with
          | TNum z :: r => postfix n (ENum z) r
          | TStr :: r => postfix n EStr r
          | TName x :: r =>
              if String.eqb x "None" then postfix n ENone r
              else if String.eqb x "True" then postfix n (EBool true) r
              else if String.eqb x "False" then postfix n (EBool false) r
              else postfix n (EName x) r
          | h :: r =>
              if is_op "(" h then
                let? (l, comma, q) := several n ")" r in
                match l, comma with
                | [a], false => postfix n a q
                | _, _ => postfix n (ETuple l) q
                end
              else if is_op "[" h then
                let? (l, _, q) := several n "]" r in postfix n (EList l) q
              else None
          | [] => None
          end
      | _ => let? (a, r) := pe n (S lvl) t in left n lvl a r
      end
  end
(** Left-associative operators of level [lvl]. *)
with left (n lvl : nat) (a : expr) (t : list token) {struct n} : option (expr * list token) :=
  match n with
  | O => None
  | S n =>
      match t with
      | h :: r =>
          match bop_of lvl h with
          | Some o => let? (b, q) := pe n (S lvl) r in left n lvl (EBin o a b) q
          | None => Some (a, t)
          end
      | [] => Some (a, t)
      end
  end
(** Attributes, calls and subscripts that follow an atom. *)
with postfix (n : nat) (a : expr) (t : list token) {struct n} : option (expr * list token) :=
  match n with
  | O => None
  | S n =>
      match t with
      | h :: r =>
          if is_op "." h then
            match r with TName x :: q => postfix n (EAttr a x) q | _ => None end
          else if is_op "(" h then
            let? (l, _, q) := several n ")" r in postfix n (ECall a l) q
          else if is_op "[" h then
            match eat ":" r with
            | Some q =>
                match eat "]" q with
                | Some u => postfix n (ESlice a None None) u
                | None =>
                    let? (hi, u) := pe n 0 q in
                    let? v := eat "]" u in postfix n (ESlice a None (Some hi)) v
                end
            | None =>
                let? (lo, q) := pe n 0 r in
                match eat ":" q with
                | None => let? u := eat "]" q in postfix n (EIndex a lo) u
                | Some u =>
                    match eat "]" u with
                    | Some v => postfix n (ESlice a (Some lo) None) v
                    | None =>
                        let? (hi, v) := pe n 0 u in
                        let? w := eat "]" v in postfix n (ESlice a (Some lo) (Some hi)) w
                    end
                end
            end
          else Some (a, t)
      | [] => Some (a, t)
      end
  end
(** Expressions separated by commas up to the closing bracket [c]; the flag says
    whether there was a comma.  A generator expression must come alone. *)
with several (n : nat) (c : string) (t : list token) {struct n}
    : option (list expr * bool * list token) :=
  match n with
  | O => None
  | S n =>
      match eat c t with
      | Some r => Some ([], false, r)
      | None =>
          let? (a, r) := pe n 0 t in
          match r with
          | TName f :: TName x :: TName i :: q =>
              if (String.eqb f "for" && String.eqb i "in")%bool then
                let? (it, u) := pe n 0 q in
                let? v := eat c u in Some ([EGen a x it], false, v)
              else None
          | _ =>
              match eat "," r with
              | Some q => let? (l, _, u) := several n c q in Some (a :: l, true, u)
              | None => let? u := eat c r in Some ([a], false, u)
              end
          end
      end
  end.

Definition pfuel : nat := 100.

(** Expressions separated by commas up to the end of the line or [=]: one, or a
    tuple. *)
Fixpoint tuple_rest (n : nat) (t : list token) : option (list expr * list token) :=
  match n with
  | O => None
  | S n =>
      let? (a, r) := pe pfuel 0 t in
      match eat "," r with
      | Some q => let? (l, u) := tuple_rest n q in Some (a :: l, u)
      | None => Some ([a], r)
      end
  end.
Definition tuple (t : list token) : option (expr * list token) :=
  let? (l, r) := tuple_rest 10 t in
  match l with [a] => Some (a, r) | _ => Some (ETuple l, r) end.

Definition whole (p : option (expr * list token)) : option expr :=
  match p with Some (a, []) => Some a | _ => None end.
(** An expression followed by a colon that ends the line. *)
Definition upto_colon (t : list token) : option expr :=
  match pe pfuel 0 t with
  | Some (a, [h]) => if is_op ":" h then Some a else None
  | _ => None
  end.

Definition aug_of (o : string) : option bop :=
  if String.eqb o "+=" then Some Oadd
  else if String.eqb o "-=" then Some Osub
  else if String.eqb o "*=" then Some Omul
  else None.

(** A statement on one line. *)
Definition simple (t : list token) : option stmt :=
  let plain :=
    let? (a, r) := tuple t in
    match r with
    | [] => Some (SExpr a)
    | TOp o :: q =>
        if String.eqb o "=" then let? e := whole (tuple q) in Some (SAssign a e)
        else let? b := aug_of o in let? e := whole (tuple q) in Some (SAug a b e)
    | _ => None
    end in
  match t with
  | TName k :: r =>
      if String.eqb k "pass" then Some SPass
      else if String.eqb k "return" then
        match r with
        | [] => Some (SReturn ENone)
        | _ => let? e := whole (tuple r) in Some (SReturn e)
        end
      else if String.eqb k "raise" then let? e := whole (pe pfuel 0 r) in Some (SRaise e)
      else if String.eqb k "assert" then let? e := whole (pe pfuel 0 r) in Some (SAssert e)
      else if String.eqb k "del" then let? e := whole (pe pfuel 0 r) in Some (SDel e)
      else plain
  | _ => plain
  end.

Definition lines : Set := list (nat * list token).

(** The statements at indentation [i] at the head of the lines. *)
Fixpoint block (n i : nat) (l : lines) {struct n} : option (stmt * lines) :=
  match n with
  | O => None
  | S n =>
      match l with
      | (j, t) :: r =>
          if Nat.eqb i j then
            let? (s, q) := statement n i t r in
            match q with
            | (j', _) :: _ =>
                if Nat.eqb i j' then let? (s', u) := block n i q in Some (SSeq s s', u)
                else if Nat.ltb j' i then Some (s, q) else None
            | [] => Some (s, q)
            end
          else None
      | [] => None
      end
  end
(** The statement whose first line is [t]; [r] are the lines below. *)
with statement (n i : nat) (t : list token) (r : lines) {struct n} : option (stmt * lines) :=
  match n with
  | O => None
  | S n =>
      match t with
      | TName k :: u =>
          if String.eqb k "if" then
            let? c := upto_colon u in
            let? (a, q) := inner n i r in
            let? (b, w) := otherwise n i q in Some (SIf c a b, w)
          else if String.eqb k "while" then
            let? c := upto_colon u in
            let? (a, q) := inner n i r in Some (SWhile c a, q)
          else if String.eqb k "for" then
            let? (x, v) := tuple u in
            match v with
            | h :: w =>
                if name_is "in" h then
                  let? it := upto_colon w in
                  let? (a, q) := inner n i r in Some (SFor x it a, q)
                else None
            | [] => None
            end
          else let? s := simple t in Some (s, r)
      | _ => let? s := simple t in Some (s, r)
      end
  end
(** A block indented more than [i]. *)
with inner (n i : nat) (l : lines) {struct n} : option (stmt * lines) :=
  match n with
  | O => None
  | S n =>
      match l with
      | (j, _) :: _ => if Nat.ltb i j then block n j l else None
      | [] => None
      end
  end
(** [elif] and [else] branches. *)
with otherwise (n i : nat) (l : lines) {struct n} : option (stmt * lines) :=
  match n with
  | O => None
  | S n =>
      match l with
      | (j, TName k :: u) :: r =>
          if Nat.eqb i j then
            if String.eqb k "elif" then
              let? c := upto_colon u in
              let? (a, q) := inner n i r in
              let? (b, w) := otherwise n i q in Some (SIf c a b, w)
            else if String.eqb k "else" then inner n i r
            else Some (SPass, l)
          else Some (SPass, l)
      | _ => Some (SPass, l)
      end
  end.

(** Parameters after [self]. *)
Fixpoint params (n : nat) (t : list token) : option (list (string * option expr)) :=
  match n with
  | O => None
  | S n =>
      match t with
      | [a; b] => if (is_op ")" a && is_op ":" b)%bool then Some [] else None
      | a :: TName x :: r =>
          if is_op "," a then
            match eat "=" r with
            | Some q => let? (d, u) := pe pfuel 0 q in
                        let? l := params n u in Some ((x, Some d) :: l)
            | None => let? l := params n r in Some ((x, None) :: l)
            end
          else None
      | _ => None
      end
  end.

(** The body of a class: definitions and aliases. *)
Fixpoint items (n : nat) (l : lines) : option (list item) :=
  match n with
  | O => None
  | S n =>
      match l with
      | [] => Some []
      | (i, [TName a; TOp o; TName b]) :: r =>
          if String.eqb o "=" then let? q := items n r in Some (IAlias a b :: q) else None
      | (i, TName d :: TName f :: p :: TName s :: t) :: r =>
          if (String.eqb d "def" && is_op "(" p && String.eqb s "self")%bool then
            let? ps := params 20 t in
            let? (b, q) := inner pfuel i r in
            let? rest := items n q in Some (IDef f ps b :: rest)
          else None
      | _ => None
      end
  end.

Definition parse (s : string) : option (list item) := items pfuel (lex s).
