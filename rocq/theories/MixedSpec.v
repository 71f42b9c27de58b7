(** * What a program with SortedLists, SortedKeyLists and lists should see

    Every object and every list of the program is an independent value; an operation changes only the object it is called on. *)
From Verif Require Import PyBase Model Spec History ModelHeap HeapSpec ModelKHeap ModelMixed.
Local Set Implicit Arguments.

(** The class of an object, with its key function. *)
Inductive cls : Set := CList | CKey (k : option nat).

Definition msimple {V} (o : mop V) : Prop :=
  match o with MW (WOp _ o) | MKey _ (KList o) => simple_op o | _ => True end.
Definition mop_ok {V} (o : mop V) : Prop :=
  match o with MW (WOp _ o) | MKey _ (KList o) => simple_op o /\ lop_ok o | _ => True end.

Section Ref.
  Context {V X : Type}.
  (** An object as a value of type [X]: its operations, the constructors, the values it iterates over, its class, and the result of
      comparing it with a list or another object. *)
  Variable step : kop V V -> X -> out V * X.
  Variable fresh : cls -> list V -> res X.
  Variable cont : X -> list V.
  Variable kind : X -> cls.
  Variable cmp : cmpop -> X -> list V + X -> out V.
  (** The objects, the program's lists. *)
  Notation RW := (list X * list (list V))%type.

  Definition q_arg (w : RW) (a : warg) : res (list V + X) :=
    match a with WUser i => let! l := getn (snd w) i in Ok (inl l) | WObj j => let! x := getn (fst w) j in Ok (inr x) end.
  Definition q_vals (a : list V + X) : list V := match a with inl l => l | inr x => cont x end.
  Definition q_on (i : nat) (o : kop V V) (w : RW) : out V * RW :=
    match getn (fst w) i with
    | Ok x => let (r, x') := step o x in (r, (replace (fst w) i x', snd w))
    | Err e => (RExn e, w)
    end.
  (** A new object of the class [c] with the values [l]. *)
  Definition q_make (c : cls) (l : list V) (w : RW) : out V * RW :=
    match fresh c l with
    | Ok x => (RUnit, (fst w ++ [x], snd w))
    | Err e => (RExn e, w)
    end.
  Definition q_new (i : nat) (f : X -> cls * list V) (w : RW) : out V * RW :=
    match getn (fst w) i with
    | Ok x => let (c, l) := f x in q_make c l w
    | Err e => (RExn e, w)
    end.
  Definition q_with (a : warg) (f : list V + X -> RW -> out V * RW) (w : RW) : out V * RW :=
    match q_arg w a with Ok x => f x w | Err e => (RExn e, w) end.
  (** [x + a]: if one of two objects is a SortedKeyList the sum is one with the same key, and its values come first. *)
  Definition q_sum (a : list V + X) (x : X) : cls * list V :=
    match a with
    | inl l => (kind x, cont x ++ l)
    | inr y => match kind x, kind y with
               | CList, CKey k => (CKey k, cont y ++ cont x)
               | c, _ => (c, cont x ++ cont y)
               end
    end.
  (** [n * x]: the key of a SortedKeyList is lost. *)
  Definition q_rmul (n : Z) (x : X) : cls * list V :=
    (match kind x with CList => CList | CKey _ => CKey None end, list_mul (cont x) n).

  Definition q_step (o : mop V) (w : RW) : out V * RW :=
    match o with
    | MW o =>
        match o with
        | WList l => (RUnit, (fst w, snd w ++ [l]))
        | WMutate i l => match getn (snd w) i with Ok _ => (RUnit, (fst w, replace (snd w) i l)) | Err e => (RExn e, w) end
        | WLook i => match getn (snd w) i with Ok l => (RList l, w) | Err e => (RExn e, w) end
        | WNew a => q_with a (fun x => q_make CList (q_vals x)) w
        | WOp i o => q_on i (KList o) w
        | WUpdate i a => q_with a (fun x => q_on i (KList (LUpdate (q_vals x)))) w
        | WIAdd i a => q_with a (fun x => q_on i (KList (LIAdd (q_vals x)))) w
        | WCompare i op a =>
            q_with a (fun y w => match getn (fst w) i with Ok x => (cmp op x y, w) | Err e => (RExn e, w) end) w
        | WSlice i sl =>
            match q_on i (KList (LSlice sl)) w with
            | (RList l, w) => (RList l, (fst w, snd w ++ [l]))
            | p => p
            end
        | WCopy i | WReduce i => q_new i (fun x => (kind x, cont x)) w
        | WPlus i a => q_with a (fun y => q_new i (q_sum y)) w
        | WMul i n => q_new i (fun x => (kind x, list_mul (cont x) n)) w
        end
    | MNewKey k a => q_with a (fun x => q_make (CKey k) (q_vals x)) w
    | MKey i o => q_on i o w
    | MRMul i n => q_new i (q_rmul n) w
    end.
  Definition q_run := run q_step.
End Ref.

(** Objects as the values the other files of this development study. *)
Inductive mval (V : Type) : Type := VList (c : core V V) | VKey (k : option nat) (s : skl V V).
(** The list objects that belong to an object of the heap, and its value: the lists it refers to, read from the heap. *)
Definition mrefs {V} (o : mobj V) : list ref := match o with OList o => rows o | OKey _ o => rows (kbase o) ++ krows o end.
Definition mview {V} (s : heap V * mobj V) : mval V :=
  match snd s with OList o => VList (view (fst s, o)) | OKey k o => VKey k (kview (fst s, o)) end.
Section Values.
  Context {V : Type}.
  Variables lt eq : V -> V -> res bool.
  Variable kfn : nat -> V -> res V.
  Variable dflt : nat.
  Definition v_step (o : kop V V) (x : mval V) : out V * mval V :=
    match x with
    | VList c =>
        match o with
        | KList o => let (r, c) := sl_step lt eq dflt o c in (r, VList c)
        | _ => (RExn AttributeError, x)
        end
    | VKey k s => let (r, s) := skl_step lt eq lt eq (keyof kfn k) dflt o s in (r, VKey k s)
    end.
  Definition v_fresh (c : cls) (l : list V) : res (mval V) :=
    match c with
    | CList => let! c := sl_new lt dflt l in Ok (VList c)
    | CKey k => let! s := skl_new lt (keyof kfn k) dflt l in Ok (VKey k s)
    end.
  Definition v_core (x : mval V) : core V V := match x with VList c => c | VKey _ s => kc s end.
  Definition v_cont (x : mval V) : list V := contents (v_core x).
  Definition v_kind (x : mval V) : cls := match x with VList _ => CList | VKey k _ => CKey k end.
  (** Python asks a SortedKeyList first. *)
  Definition v_cmp (op : cmpop) (x : mval V) (a : list V + mval V) : out V :=
    match x, a with
    | VList c, inr (VKey _ s) => fst (observe (@RBool V) (compare lt eq (cmp_flip op) (contents c)) (kc s))
    | _, _ => fst (observe (@RBool V) (compare lt eq op (q_vals v_cont a)) (v_core x))
    end.
  Definition mixed_values := q_run v_step v_fresh v_cont v_kind v_cmp.
End Values.

(** Objects as sorted Python lists with a class. *)
Section Lists.
  Context {V : Type}.
  Variables ltb eqb : V -> V -> bool.
  Variable key : nat -> V -> V.
  Definition keyfn (k : option nat) (v : V) : V := match k with None => v | Some n => key n v end.
  Notation X := (cls * list V)%type.
  Definition s_step (o : kop V V) (x : X) : out V * X :=
    match fst x with
    | CList =>
        match o with
        | KList o => let (r, l) := sp_step ltb eqb ltb o (snd x) in (r, (CList, l))
        | _ => (RExn AttributeError, x)
        end
    | CKey k => let (r, l) := sp_kstep eqb ltb (keyfn k) ltb o (snd x) in (r, (CKey k, l))
    end.
  Definition s_fresh (c : cls) (l : list V) : res X :=
    Ok (c, match c with CList => sp_sort ltb l | CKey k => sp_sort (by_key (keyfn k) ltb) l end).
  (** Comparisons of two objects are those of their values, whichever is asked. *)
  Definition s_cmp (op : cmpop) (x : X) (a : list V + X) : out V := RBool (sp_compare eqb ltb op (snd x) (q_vals (@snd cls (list V)) a)).
  Definition mixed_lists := q_run s_step s_fresh (@snd cls (list V)) (@fst cls (list V)) s_cmp.
End Lists.

(** A world reached by some history over total orders, and what its objects show: the class of an object and the values iteration yields. *)
Definition mixed_reach {V} (ltb eqb : V -> V -> bool) (key : nat -> V -> V) (dflt : nat) (w : mworld V) : Prop :=
  exists ops, Forall mop_ok ops /\ w = snd (mw_run (total2 ltb) (total2 eqb) (fun n => total1 (key n)) dflt ops mw_init).
Definition class_of {V} (o : mobj V) : cls := match o with OList _ => CList | OKey k _ => CKey k end.
Definition m_has {V} (w : mworld V) (i : nat) (c : cls) (l : list V) : Prop :=
  exists o, nth_error (m_objs w) i = Some o /\ class_of o = c /\ elems (m_heap w) (HRows (m_rows o)) = l.
