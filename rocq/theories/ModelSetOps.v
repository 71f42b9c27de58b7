(** * The operators [&], [|], [-], [^] between objects of different classes, and their in-place forms

    Which method Python asks (Python data model, "emulating numeric types"), and what the methods of the library and of
    the built-in types answer to an operand of each class. *)
From Verif Require Import PyBase Model History ListClass ModelSet ModelDict ModelView ModelMixed ModelCompare.
Local Set Implicit Arguments.

Inductive setop : Type := OpAnd | OpOr | OpSub | OpXor.

(** What a method can see of the other operand. *)
Record seen (V : Type) : Type := mkseen {
  e_iter : option (res (list V));   (** what [iter(other)] yields; [None]: not iterable *)
  e_any : bool;                     (** a [set] or [frozenset] ([PyAnySet_Check]) *)
  e_set : bool }.                   (** an instance of [collections.abc.Set] *)
Arguments mkseen {V}.

Section Seen.
  Context {S V K : Type}.
  Variable T : listcls S V K.
  Variable eqb : V -> V -> bool.
  Variable ord : nat -> list V -> list V.
  Notation operand := (ModelCompare.operand (S:=S) (V:=V) (K:=K)).

  (** An operand as the other one sees it.  The members of a hash set are listed in the order of its iteration.  [OOther] is not
      iterable and has none of the operators. *)
  Definition sight (x : operand) : seen V :=
    match x with
    | OPySet l | OFrozen l => mkseen (Some (Ok l)) true true
    | ODictKeys l => mkseen (Some (Ok l)) false true
    | OSet _ | OKeys _ => mkseen (seq_of T eqb x) false true
    | _ => mkseen (seq_of T eqb x) false false
    end.

  (** [SortedSet.intersection], [union], [difference], [symmetric_difference], called with one argument:
      [__and__], [__rand__], [__or__], [__ror__], [__sub__], [__xor__], [__rxor__] are these functions
      (sortedset.py:473, 527-528, 578-579, 626-627).  What is not iterable raises TypeError inside them. *)
  Definition set_method (op : setop) (o : seen V) (s : sset S V) : res (sset S V) :=
    match e_iter o with
    | None => Err TypeError
    | Some r =>
        let! l := r in
        let a := if e_any o then ASet l else AIter l in
        fst (match op with
             | OpAnd => ss_intersection T eqb ord [a] s
             | OpOr => ss_union T eqb ord [a] s
             | OpSub => ss_difference T eqb ord [a] s
             | OpXor => ss_symmetric_difference T eqb ord a s
             end)
    end.
  (** [SortedSet.intersection_update], [update], [difference_update], [symmetric_difference_update]: [__iand__], [__ior__],
      [__isub__], [__ixor__] are these functions, which return [self] (sortedset.py:504, 555, 607, 659). *)
  Definition set_update_method (op : setop) (o : seen V) (s : sset S V) : res (sset S V) :=
    match e_iter o with
    | None => Err TypeError
    | Some r =>
        let! l := r in
        let a := if e_any o then ASet l else AIter l in
        let (r, s') := (match op with
             | OpAnd => ss_intersection_update T eqb ord [a] s
             | OpOr => ss_update T eqb ord [a] s
             | OpSub => ss_difference_update T eqb ord [a] s
             | OpXor => ss_symmetric_difference_update T eqb ord a s
             end) in
        let! _ := r in Ok s'
    end.
  (** The four operators of [set] and [frozenset] between two of them ([set_and], [set_or], [set_sub], [set_xor] of CPython's setobject.c). *)
  Definition py_method (op : setop) (l m : list V) : list V :=
    match op with
    | OpAnd => set_inter eqb l (ASet m)
    | OpOr => set_union eqb l m
    | OpSub => set_diff eqb l m
    | OpXor => set_sym_new eqb l m
    end.
  (** The operators of [dict_keys] ([dictviews_and] and so on of CPython's dictobject.c), which accept any iterable on either side: a set of
      the left operand, then the updating method with the right one. *)
  Definition py_keys (op : setop) (l m : list V) : list V :=
    match op with
    | OpAnd => set_inter eqb (set_of eqb l) (AIter m)
    | OpOr => set_union eqb (set_of eqb l) m
    | OpSub => set_diff eqb (set_of eqb l) m
    | OpXor => set_sym eqb (set_of eqb l) m
    end.

  Section Mixin.
    Context {SN KN : Type}.
    Variable N : listcls SN V KN.
    (** The inherited methods of [collections.abc.Set] (ModelView.v), which answer [NotImplemented] to what is not iterable. *)
    Definition mixin_method {St} (w : view St V) (op : vop) (t : nat) (o : seen V) (s : St) : option (res (sset SN V)) :=
      match e_iter o with
      | None => None
      | Some r => Some (let! l := r in fst (mix_op w N eqb ord op t (if e_set o then ASet l else AIter l) s))
      end.
    Definition vop_of (op : setop) : vop := match op with OpAnd => VAnd | OpOr => VOr | OpSub => VSub | OpXor => VXor end.
    (** The reflected method of the mixin: [__rand__], [__ror__], [__rxor__] are the same functions. *)
    Definition vop_back (op : setop) : vop := match op with OpSub => VRSub | _ => vop_of op end.

    (** What a method returns. *)
    Inductive made : Type :=
    | MOwn (s : sset S V)       (** a SortedSet with the key function of the operand asked *)
    | MPlain (s : sset SN V)    (** a SortedSet without key function *)
    | MPySet (l : list V) | MFrozen (l : list V).
    Definition rmap {A B} (f : A -> B) (r : res A) : res B := let! a := r in Ok (f a).

    (** [x.__op__(y)]; [None] is [NotImplemented] or no such method.  Lists, tuples, SortedLists, SortedKeyLists and
        SortedValuesViews have none of the four. *)
    Definition forward (op : setop) (t : nat) (x : operand) (o : seen V) : option (res made) :=
      match x with
      | OPySet l => if e_any o then option_map (rmap (fun m => MPySet (py_method op l m))) (e_iter o) else None
      | OFrozen l => if e_any o then option_map (rmap (fun m => MFrozen (py_method op l m))) (e_iter o) else None
      | ODictKeys l => Some (match e_iter o with None => Err TypeError | Some r => rmap (fun m => MPySet (py_keys op l m)) r end)
      | OSet s => Some (rmap MOwn (set_method op o s))
      | OKeys d => option_map (rmap MPlain) (mixin_method (keys_view T eqb) (vop_of op) t o d)
      | _ => None
      end.
    (** [y.__rop__(x)]: [SortedSet.__rsub__] is inherited from [collections.abc.Set]. *)
    Definition backward (op : setop) (t : nat) (y : operand) (o : seen V) : option (res made) :=
      match y with
      | ODictKeys m => Some (match e_iter o with None => Err TypeError | Some r => rmap (fun l => MPySet (py_keys op l m)) r end)
      | OSet s =>
          match op with
          | OpSub => option_map (rmap MPlain) (mixin_method (set_view T eqb) VRSub t o s)
          | _ => Some (rmap MOwn (set_method op o s))
          end
      | OKeys d => option_map (rmap MPlain) (mixin_method (keys_view T eqb) (vop_back op) t o d)
      | _ => None
      end.
    (** [x.__iop__(y)]; only [set] and [SortedSet] have these methods. *)
    Definition inplace (op : setop) (x : operand) (o : seen V) : option (res made) :=
      match x with
      | OPySet l => if e_any o then option_map (rmap (fun m => MPySet (py_method op l m))) (e_iter o) else None
      | OSet s => Some (rmap MOwn (set_update_method op o s))
      | _ => None
      end.
  End Mixin.
End Seen.
Arguments MOwn {S V SN}. Arguments MPlain {S V SN}. Arguments MPySet {S V SN}. Arguments MFrozen {S V SN}.

Section Operators.
  Context {S S' V K K' SN KN : Type}.
  (** The key functions of SortedSets and SortedDicts on the left and on the right may differ; [N] is the class without. *)
  Variable T : listcls S V K.
  Variable T' : listcls S' V K'.
  Variable N : listcls SN V KN.
  Variable eqb : V -> V -> bool.
  Variable ord : nat -> list V -> list V.
  Notation left_operand := (ModelCompare.operand (S:=S) (V:=V) (K:=K)).
  Notation right_operand := (ModelCompare.operand (S:=S') (V:=V) (K:=K')).

  (** The object an expression gives. *)
  Inductive result : Type :=
  | RLeft (s : sset S V) | RRight (s : sset S' V) | RPlain (s : sset SN V)
  | RPySet (l : list V) | RFrozen (l : list V).
  Definition from_left (m : made (S:=S) (V:=V) (SN:=SN)) : result :=
    match m with MOwn s => RLeft s | MPlain s => RPlain s | MPySet l => RPySet l | MFrozen l => RFrozen l end.
  Definition from_right (m : made (S:=S') (V:=V) (SN:=SN)) : result :=
    match m with MOwn s => RRight s | MPlain s => RPlain s | MPySet l => RPySet l | MFrozen l => RFrozen l end.

  (** [x op y]: none of the classes is a proper subclass of another that has the operators, so [x] is asked first. *)
  Definition binop (op : setop) (t : nat) (x : left_operand) (y : right_operand) : res result :=
    match forward T eqb ord N op t x (sight T' eqb y) with
    | Some r => rmap from_left r
    | None =>
        match backward T' eqb ord N op t y (sight T eqb x) with
        | Some r => rmap from_right r
        | None => Err TypeError
        end
    end.
  (** [x op= y]: the object that [x] names afterwards. *)
  Definition augmented (op : setop) (t : nat) (x : left_operand) (y : right_operand) : res result :=
    match inplace (SN:=SN) T eqb ord op x (sight T' eqb y) with
    | Some r => rmap from_left r
    | None => binop op t x y
    end.
End Operators.
Arguments RLeft {S S' V SN}. Arguments RRight {S S' V SN}. Arguments RPlain {S S' V SN}. Arguments RPySet {S S' V SN}. Arguments RFrozen {S S' V SN}.
