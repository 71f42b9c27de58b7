(** * What the statements of SourceSyntax.v do

    An interpreter for the subset.  It knows nothing about sorted lists: it has
    Python values, lists as objects with an identity on a heap, one instance
    ([self]) with attributes, local variables, and the builtins the methods use.

    Simplifications.  Only one instance.  Iterators are filled when they are
    made (nothing in the methods changes a list while an iterator on it is
    alive; for iterators that a method returns it means that the caller uses
    them at once).  [log(n, 2)] is the exact integer part and [int] leaves it alone.
    The argument of an exception is not evaluated.  Loops stop with [OutOfFuel]
    after [fuel] rounds and calls of methods after [depth] levels; the theorems
    say how much is enough.  Whatever is not described below raises [TypeError]. *)
From Coq Require Import String.
From Verif Require Import PyBase SourceSyntax.
Local Open Scope string_scope.
Local Open Scope nat_scope.
Local Open Scope list_scope.
Local Set Implicit Arguments.

Section Sem.
  Context {V : Type}.
  (** [<] and [==] of the values kept in the list; each call may raise. *)
  Variables lt eq : V -> V -> res bool.

  (** [VList] and [VIter] carry the address of the object; [VBound r m] is the
      method [m] of the list [r], not yet called. *)
  Inductive val : Type :=
  | VNone | VBool (b : bool) | VInt (z : Z) | VStr
  | VElt (v : V)
  | VList (r : nat) | VIter (r : nat)
  | VTup (l : list val)
  | VSlice (sl : slice) | VRange (start stop step : Z)
  | VBound (r : nat) (m : string)
  | VSelf | VMeth (m : string) | VFun (f : string).

  (** The heap (the values in each list or iterator), the next free address and
      the attributes of [self]. *)
  Record st : Type := mkst { heap : nat -> list val; next : nat; attrs : list (string * val) }.

  Definition env : Type := list (string * val).

  Fixpoint find (x : string) (e : env) : option val :=
    match e with
    | [] => None
    | (y, v) :: r => if String.eqb x y then Some v else find x r
    end.
  Fixpoint put (x : string) (v : val) (e : env) : env :=
    match e with
    | [] => [(x, v)]
    | (y, w) :: r => if String.eqb x y then (y, v) :: r else (y, w) :: put x v r
    end.

  Definition on (h : nat -> list val) (r : nat) (l : list val) : nat -> list val :=
    fun q => if q =? r then l else h q.

  Definition load_at (r : nat) : M st (list val) := fun s => (Ok (heap s r), s).
  Definition store (r : nat) (l : list val) : M st unit :=
    fun s => (Ok tt, mkst (on (heap s) r l) (next s) (attrs s)).
  Definition alloc (l : list val) : M st nat :=
    fun s => (Ok (next s), mkst (on (heap s) (next s) l) (S (next s)) (attrs s)).
  Definition new_list (l : list val) : M st val := r <- alloc l ;; ret (VList r).
  Definition new_iter (l : list val) : M st val := r <- alloc l ;; ret (VIter r).
  Definition set_attr (a : string) (v : val) : M st unit :=
    fun s => (Ok tt, mkst (heap s) (next s) (put a v (attrs s))).
  Definition get_attr (a : string) : M st val :=
    fun s => (match find a (attrs s) with Some v => Ok v | None => Ok (VMeth a) end, s).

  Definition typerr {A} : M st A := raise TypeError.

  Definition int_of (v : val) : M st Z :=
    match v with VInt z => ret z | _ => typerr end.

  (** [bool(v)]; a value of the list is not asked. *)
  Definition truth (v : val) : M st bool :=
    match v with
    | VNone => ret false
    | VBool b => ret b
    | VInt z => ret (negb (z =? 0)%Z)
    | VList r => l <- load_at r ;; ret (negb (is_nil l))
    | VTup l => ret (negb (is_nil l))
    | _ => typerr
    end.

  (** The values an iterable yields; an iterator is used up. *)
  Definition elems (v : val) : M st (list val) :=
    match v with
    | VList r => load_at r
    | VIter r => l <- load_at r ;; store r [] ;;; ret l
    | VTup l => ret l
    | VRange x y z => ret (map VInt (rangez x y z))
    | _ => typerr
    end.

  (** The list of values [V] behind a list of Python values. *)
  Definition elt_of (v : val) : res V :=
    match v with VElt x => Ok x | _ => Err TypeError end.
  Definition elts_of (l : list val) : res (list V) := mapR elt_of l.

  (** Where index [i] falls in a list of length [n]. *)
  Definition place (i : Z) (n : nat) : res nat :=
    let j := (if i <? 0 then i + Z.of_nat n else i)%Z in
    if (j <? 0)%Z then Err IndexError
    else if Z.to_nat j <? n then Ok (Z.to_nat j) else Err IndexError.
  (** Where the bound [i] of a slice falls. *)
  Definition clamp (i : Z) (n : nat) : nat :=
    let j := (if i <? 0 then i + Z.of_nat n else i)%Z in
    Nat.min (Z.to_nat j) n.
  Definition bounds (lo hi : option Z) (n : nat) : nat * nat :=
    let a := match lo with Some i => clamp i n | None => 0 end in
    let b := match hi with Some i => clamp i n | None => n end in
    (a, Nat.max a b).

  (** ** Operators *)
  Definition arith (o : bop) (a b : val) : M st val :=
    match a, b with
    | VInt x, VInt y =>
        match o with
        | Oadd => ret (VInt (x + y))
        | Osub => ret (VInt (x - y))
        | Omul => ret (VInt (x * y))
        | Opow => if (y <? 0)%Z then typerr else ret (VInt (x ^ y))
        | Oshl => if (y <? 0)%Z then raise ValueError else ret (VInt (Z.shiftl x y))
        | Oshr => if (y <? 0)%Z then raise ValueError else ret (VInt (Z.shiftr x y))
        | Oand => ret (VInt (Z.land x y))
        end
    | VList p, VList q =>
        match o with
        | Oadd => x <- load_at p ;; y <- load_at q ;; new_list (x ++ y)
        | _ => typerr
        end
    | VList p, VInt n =>
        match o with
        | Omul => x <- load_at p ;; new_list (concat (repeat x (Z.to_nat n)))
        | _ => typerr
        end
    | _, _ => typerr
    end.
  (** [a += b]: a list is changed in place. *)
  Definition inplace (o : bop) (a b : val) : M st val :=
    match a, o with
    | VList p, Oadd => y <- elems b ;; x <- load_at p ;; store p (x ++ y) ;;; ret a
    | _, _ => arith o a b
    end.

  Definition cmpz (o : cop) (x y : Z) : bool :=
    match o with
    | Qlt => x <? y | Qle => x <=? y | Qgt => y <? x | Qge => y <=? x
    | Qeq => x =? y | Qne => negb (x =? y)
    | Qis | Qisnot => false
    end%Z.
  Definition cmp (o : cop) (a b : val) : M st val :=
    match o with
    | Qis => match b with
             | VNone => ret (VBool (match a with VNone => true | _ => false end))
             | _ => typerr end
    | Qisnot => match b with
                | VNone => ret (VBool (match a with VNone => false | _ => true end))
                | _ => typerr end
    | _ =>
        match a, b with
        | VInt x, VInt y => ret (VBool (cmpz o x y))
        | VElt x, VElt y =>
            match o with
            | Qeq => r <- liftr (eq x y) ;; ret (VBool r)
            | Qne => r <- liftr (eq x y) ;; ret (VBool (negb r))
            | Qlt => r <- liftr (lt x y) ;; ret (VBool r)
            | Qgt => r <- liftr (lt y x) ;; ret (VBool r)
            | _ => typerr
            end
        | _, _ => typerr
        end
    end.

  (** ** Builtins *)
  (** Functions that are also passed to [map], [starmap] and [reduce]. *)
  Definition prim (f : string) (args : list val) : M st val :=
    match args with
    | [a] =>
        if String.eqb f "len" then
          match a with
          | VList r => l <- load_at r ;; ret (VInt (Z.of_nat (length l)))
          | VTup l => ret (VInt (Z.of_nat (length l)))
          | _ => typerr
          end
        else if String.eqb f "reversed" then l <- elems a ;; new_iter (rev l)
        else typerr
    | [a; b] =>
        if String.eqb f "add" then arith Oadd a b
        else if String.eqb f "iadd" then inplace Oadd a b
        else typerr
    | _ => typerr
    end.

  Fixpoint reduce_with (f : string) (l : list val) (acc : val) : M st val :=
    match l with
    | [] => ret acc
    | x :: r => a <- prim f [acc; x] ;; reduce_with f r a
    end.

  (** [next(it)] *)
  Definition next_of (r : nat) : M st (option val) :=
    l <- load_at r ;;
    match l with
    | [] => ret None
    | x :: t => store r t ;;; ret (Some x)
    end.
  (** [zip(a, b)] on two iterators, which may be the same object. *)
  Fixpoint zip_loop (n : nat) (a b : nat) : M st (list val) :=
    match n with
    | O => ret []
    | S n =>
        x <- next_of a ;;
        match x with
        | None => ret []
        | Some x =>
            y <- next_of b ;;
            match y with
            | None => ret []
            | Some y => l <- zip_loop n a b ;; ret (VTup [x; y] :: l)
            end
        end
    end.

  Definition tup_of (v : val) : M st (list val) :=
    match v with VTup l => ret l | _ => typerr end.

  Fixpoint is_int_list (l : list val) : option (list Z) :=
    match l with
    | [] => Some []
    | VInt z :: t => match is_int_list t with Some r => Some (z :: r) | None => None end
    | _ => None
    end.

  (** ** Methods of lists *)
  Definition list_method (r : nat) (m : string) (args : list val) : M st val :=
    match args with
    | [] =>
        if String.eqb m "sort" then
          l <- load_at r ;; x <- liftr (elts_of l) ;;
          y <- liftr (py_sorted lt x) ;; store r (map VElt y) ;;; ret VNone
        else if String.eqb m "reverse" then
          l <- load_at r ;; store r (rev l) ;;; ret VNone
        else typerr
    | [a] =>
        if String.eqb m "append" then l <- load_at r ;; store r (l ++ [a]) ;;; ret VNone
        else if String.eqb m "extend" then
          x <- elems a ;; l <- load_at r ;; store r (l ++ x) ;;; ret VNone
        else if String.eqb m "__getitem__" then
          z <- int_of a ;; l <- load_at r ;; liftr (getz l z)
        else typerr
    | [a; b] =>
        if String.eqb m "insert" then
          i <- int_of a ;; l <- load_at r ;;
          store r (insn l (clamp i (length l)) b) ;;; ret VNone
        else typerr
    | _ => typerr
    end.
  (** [slice.indices(n)] *)
  Definition slice_method (sl : slice) (m : string) (args : list val) : M st val :=
    match args with
    | [a] =>
        if String.eqb m "indices" then
          n <- int_of a ;;
          if (n <? 0)%Z then raise ValueError
          else t <- liftr (slice_indices sl (Z.to_nat n)) ;;
               let '(x, y, z) := t in ret (VTup [VInt x; VInt y; VInt z])
        else typerr
    | _ => typerr
    end.

  (** An argument that may be [None]. *)
  Definition maybe_int (v : val) : M st (option Z) :=
    match v with VNone => ret None | VInt z => ret (Some z) | _ => typerr end.

  Definition builtin (f : string) (args : list val) : M st val :=
    match args with
    | [a] =>
        if String.eqb f "list" then l <- elems a ;; new_list l
        else if String.eqb f "iter" then
          match a with
          | VIter r => ret a
          | _ => l <- elems a ;; new_iter l
          end
        else if String.eqb f "range" then x <- int_of a ;; ret (VRange 0 x 1)
        else if String.eqb f "chain.from_iterable" then
          l <- elems a ;; r <- mapM elems l ;; new_iter (concat r)
        else if String.eqb f "sorted" then
          l <- elems a ;; x <- liftr (elts_of l) ;;
          y <- liftr (py_sorted lt x) ;; new_list (map VElt y)
        else if String.eqb f "int" then z <- int_of a ;; ret (VInt z)
        else prim f args
    | [a; b] =>
        if String.eqb f "bisect_left" then
          l <- elems a ;; x <- liftr (elts_of l) ;; v <- liftr (elt_of b) ;;
          i <- liftr (bisect_left lt x v) ;; ret (VInt (Z.of_nat i))
        else if String.eqb f "bisect_right" then
          l <- elems a ;; x <- liftr (elts_of l) ;; v <- liftr (elt_of b) ;;
          i <- liftr (bisect_right lt x v) ;; ret (VInt (Z.of_nat i))
        else if String.eqb f "insort" then
          match a with
          | VList r =>
              l <- load_at r ;; x <- liftr (elts_of l) ;; v <- liftr (elt_of b) ;;
              y <- liftr (insort lt x v) ;; store r (map VElt y) ;;; ret VNone
          | _ => typerr
          end
        else if String.eqb f "map" then
          match a with
          | VFun g => l <- elems b ;; r <- mapM (fun x => prim g [x]) l ;; new_iter r
          | VBound q m => l <- elems b ;; r <- mapM (fun x => list_method q m [x]) l ;; new_iter r
          | _ => typerr
          end
        else if String.eqb f "range" then
          x <- int_of a ;; y <- int_of b ;; ret (VRange x y 1)
        else if String.eqb f "slice" then
          x <- maybe_int a ;; y <- maybe_int b ;; ret (VSlice (mkslice x y None))
        else if String.eqb f "isinstance" then
          match b with
          | VFun g => if String.eqb g "slice"
                      then ret (VBool (match a with VSlice _ => true | _ => false end))
                      else typerr
          | _ => typerr
          end
        else if String.eqb f "chain" then
          l <- elems a ;; r <- elems b ;; new_iter (l ++ r)
        else if String.eqb f "starmap" then
          match a with
          | VFun g =>
              l <- elems b ;;
              r <- mapM (fun x => t <- tup_of x ;; prim g t) l ;; new_iter r
          | _ => typerr
          end
        else if String.eqb f "zip" then
          match a, b with
          | VIter p, VIter q =>
              l <- load_at p ;; r <- zip_loop (S (length l)) p q ;; new_iter r
          | _, _ => typerr
          end
        else if String.eqb f "repeat" then
          n <- int_of b ;; new_iter (repeat a (Z.to_nat n))
        else if String.eqb f "log" then
          x <- int_of a ;; y <- int_of b ;;
          if (y =? 2)%Z then
            if (x <=? 0)%Z then raise ValueError else ret (VInt (Z.log2 x))
          else typerr
        else prim f args
    | [a; b; c] =>
        if String.eqb f "range" then
          x <- int_of a ;; y <- int_of b ;; z <- int_of c ;;
          if (z =? 0)%Z then raise ValueError
          else ret (VRange x y z)
        else if String.eqb f "chain" then
          k <- elems a ;; l <- elems b ;; r <- elems c ;; new_iter (k ++ l ++ r)
        else if String.eqb f "reduce" then
          match a with
          | VFun g => l <- elems b ;; reduce_with g l c
          | _ => typerr
          end
        else typerr
    | _ => typerr
    end.

  (** ** Expressions *)
  Variable invoke : string -> list val -> M st val.

  Definition apply (f : val) (args : list val) : M st val :=
    match f with
    | VFun g => builtin g args
    | VMeth m => invoke m args
    | _ => typerr
    end.

  Definition subscript (a i : val) : M st val :=
    match a, i with
    | VList r, VInt z => l <- load_at r ;; liftr (getz l z)
    | VTup l, VInt z => liftr (getz l z)
    | _, _ => typerr
    end.

  Definition opt_int (v : option val) : M st (option Z) :=
    match v with None => ret None | Some v => z <- int_of v ;; ret (Some z) end.

  Fixpoint eval (e : expr) (en : env) : M st val :=
    match e with
    | ENone => ret VNone
    | EBool b => ret (VBool b)
    | ENum z => ret (VInt z)
    | EStr => ret VStr
    | EName x => match find x en with Some v => ret v | None => ret (VFun x) end
    | EAttr e a =>
        v <- eval e en ;;
        match v with VSelf => get_attr a | VList r => ret (VBound r a) | _ => typerr end
    | ECall f args =>
        match f with
        | EAttr o m =>
            v <- eval o en ;;
            l <- (fix evals (l : list expr) : M st (list val) :=
                    match l with
                    | [] => ret []
                    | a :: t => x <- eval a en ;; y <- evals t ;; ret (x :: y)
                    end) args ;;
            match v with
            | VSelf => g <- get_attr m ;; apply g l
            | VList r => list_method r m l
            | VSlice sl => slice_method sl m l
            | VFun f => builtin (String.append f (String.append "." m)) l
            | _ => typerr
            end
        | _ =>
            g <- eval f en ;;
            l <- (fix evals (l : list expr) : M st (list val) :=
                    match l with
                    | [] => ret []
                    | a :: t => x <- eval a en ;; y <- evals t ;; ret (x :: y)
                    end) args ;;
            apply g l
        end
    | EIndex a i => x <- eval a en ;; y <- eval i en ;; subscript x y
    | ESlice a lo hi =>
        x <- eval a en ;;
        p <- (match lo with None => ret None | Some e => v <- eval e en ;; ret (Some v) end) ;;
        q <- (match hi with None => ret None | Some e => v <- eval e en ;; ret (Some v) end) ;;
        match x with
        | VList r =>
            i <- opt_int p ;; j <- opt_int q ;; l <- load_at r ;;
            let '(u, v) := bounds i j (length l) in new_list (slicen l u v)
        | _ => typerr
        end
    | EBin o a b => x <- eval a en ;; y <- eval b en ;; arith o x y
    | ENeg a => x <- eval a en ;; z <- int_of x ;; ret (VInt (- z))
    | ENot a => x <- eval a en ;; b <- truth x ;; ret (VBool (negb b))
    | EAnd a b => x <- eval a en ;; t <- truth x ;; if t then eval b en else ret x
    | EOr a b => x <- eval a en ;; t <- truth x ;; if t then ret x else eval b en
    | ECmp o a b => x <- eval a en ;; y <- eval b en ;; cmp o x y
    | EChain a o b o' c =>
        x <- eval a en ;; y <- eval b en ;; r <- cmp o x y ;; t <- truth r ;;
        if t then z <- eval c en ;; cmp o' y z else ret r
    | ETuple l =>
        r <- (fix evals (l : list expr) : M st (list val) :=
                match l with
                | [] => ret []
                | a :: t => x <- eval a en ;; y <- evals t ;; ret (x :: y)
                end) l ;;
        ret (VTup r)
    | EList l =>
        r <- (fix evals (l : list expr) : M st (list val) :=
                match l with
                | [] => ret []
                | a :: t => x <- eval a en ;; y <- evals t ;; ret (x :: y)
                end) l ;;
        new_list r
    | EGen b x it =>
        v <- eval it en ;; l <- elems v ;;
        r <- mapM (fun w => eval b (put x w en)) l ;; new_iter r
    end.

  (** ** Statements *)

  (** How a statement ends: with the variables as they are then, or with the
      value returned. *)
  Inductive ctl : Type := Go (en : env) | Done (v : val).

  Fixpoint while_loop (n : nat) (c : env -> M st val) (b : env -> M st ctl) (en : env)
      : M st ctl :=
    match n with
    | O => raise OutOfFuel
    | S n =>
        v <- c en ;; t <- truth v ;;
        if t then
          r <- b en ;;
          match r with Go en' => while_loop n c b en' | Done v => ret (Done v) end
        else ret (Go en)
    end.
  Fixpoint for_loop (l : list val) (b : val -> env -> M st ctl) (en : env) : M st ctl :=
    match l with
    | [] => ret (Go en)
    | x :: t =>
        r <- b x en ;;
        match r with Go en' => for_loop t b en' | Done v => ret (Done v) end
    end.

  Definition exn_of (e : expr) : exn :=
    match e with
    | ECall (EName x) _ | EName x =>
        if String.eqb x "IndexError" then IndexError
        else if String.eqb x "ValueError" then ValueError
        else if String.eqb x "NotImplementedError" then NotImplementedError
        else TypeError
    | _ => TypeError
    end.

  Definition bind_name (t : expr) (v : val) (en : env) : M st env :=
    match t with EName x => ret (put x v en) | _ => typerr end.
  Fixpoint bind_names (ts : list expr) (vs : list val) (en : env) : M st env :=
    match ts, vs with
    | [], [] => ret en
    | t :: ts, v :: vs => e <- bind_name t v en ;; bind_names ts vs e
    | _, _ => raise ValueError
    end.

  (** [t = v] *)
  Definition assign (t : expr) (v : val) (en : env) : M st env :=
    match t with
    | EName x => ret (put x v en)
    | EAttr e a =>
        o <- eval e en ;;
        match o with VSelf => set_attr a v ;;; ret en | _ => typerr end
    | EIndex e i =>
        o <- eval e en ;; k <- eval i en ;;
        match o, k with
        | VList r, VInt z =>
            l <- load_at r ;; j <- liftr (place z (length l)) ;;
            l' <- liftr (setn l j v) ;; store r l' ;;; ret en
        | _, _ => typerr
        end
    | ESlice e None None =>
        o <- eval e en ;;
        match o with
        | VList r => l <- elems v ;; store r l ;;; ret en
        | _ => typerr
        end
    | ETuple ts => vs <- elems v ;; bind_names ts vs en
    | _ => typerr
    end.

  Definition delete (t : expr) (en : env) : M st unit :=
    match t with
    | EIndex e i =>
        o <- eval e en ;; k <- eval i en ;;
        match o, k with
        | VList r, VInt z =>
            l <- load_at r ;; j <- liftr (place z (length l)) ;;
            l' <- liftr (deln l j) ;; store r l'
        | _, _ => typerr
        end
    | ESlice e lo hi =>
        o <- eval e en ;;
        p <- (match lo with None => ret None | Some e => v <- eval e en ;; ret (Some v) end) ;;
        q <- (match hi with None => ret None | Some e => v <- eval e en ;; ret (Some v) end) ;;
        match o with
        | VList r =>
            i <- opt_int p ;; j <- opt_int q ;; l <- load_at r ;;
            let '(u, v) := bounds i j (length l) in store r (firstn u l ++ skipn v l)
        | _ => typerr
        end
    | _ => typerr
    end.

  Variable fuel : nat.

  Fixpoint exec (s : stmt) (en : env) : M st ctl :=
    match s with
    | SPass => ret (Go en)
    | SSeq a b =>
        r <- exec a en ;;
        match r with Go en' => exec b en' | Done v => ret (Done v) end
    | SExpr e => eval e en ;;; ret (Go en)
    | SAssign t e => v <- eval e en ;; en' <- assign t v en ;; ret (Go en')
    | SAug t o e =>
        x <- eval t en ;; y <- eval e en ;; v <- inplace o x y ;;
        en' <- assign t v en ;; ret (Go en')
    | SDel t => delete t en ;;; ret (Go en)
    | SIf c a b => v <- eval c en ;; t <- truth v ;; if t then exec a en else exec b en
    | SWhile c b => while_loop fuel (eval c) (exec b) en
    | SFor x it b =>
        v <- eval it en ;; l <- elems v ;;
        for_loop l (fun v en => en' <- assign x v en ;; exec b en') en
    | SReturn e => v <- eval e en ;; ret (Done v)
    | SRaise e => raise (exn_of e)
    | SAssert e => v <- eval e en ;; t <- truth v ;;
                   if t then ret (Go en) else raise AssertionError
    end.
End Sem.

Arguments val : clear implicits.
Arguments st : clear implicits.
Arguments env : clear implicits.
Arguments ctl : clear implicits.

Section Run.
  Context {V : Type}.
  Variables lt eq : V -> V -> res bool.
  Variable class : list item.

  Fixpoint lookup (n : nat) (m : string) (l : list item)
      : option (list (string * option expr) * stmt) :=
    match n with
    | O => None
    | S n =>
        match l with
        | [] => None
        | IDef f ps b :: r => if String.eqb m f then Some (ps, b) else lookup n m r
        | IAlias a t :: r => if String.eqb m a then lookup n t class else lookup n m r
        end
    end.

  (** Parameters get the arguments in order; a missing one its default. *)
  Fixpoint bind_params (ps : list (string * option expr)) (args : list (val V)) (en : env V)
      : M (st V) (env V) :=
    match ps, args with
    | [], [] => ret en
    | (x, _) :: ps, a :: args => bind_params ps args (en ++ [(x, a)])
    | (x, Some d) :: ps, [] =>
        v <- eval lt eq (fun _ _ => raise TypeError) d en ;;
        bind_params ps [] (en ++ [(x, v)])
    | _, _ => raise TypeError
    end.

  (** [self.m(args)]: the body of [m] is run; nothing returned means [None]. *)
  Fixpoint call (fuel depth : nat) (m : string) (args : list (val V)) : M (st V) (val V) :=
    match depth with
    | O => raise OutOfFuel
    | S d =>
        match lookup 100 m class with
        | None => raise AttributeError
        | Some (ps, b) =>
            en <- bind_params ps args [("self", VSelf)] ;;
            r <- exec lt eq (call fuel d) fuel b en ;;
            match r with Go _ => ret VNone | Done v => ret v end
        end
    end.
End Run.
