(** * What a program with several SortedLists and lists should see

    Every SortedList and every list of the program is an independent value; an operation changes only the object it is called on. *)
From Verif Require Import PyBase Model Spec History ModelHeap.
Local Set Implicit Arguments.

(** Operations that [WOp] may carry: the others have operations of their own in [wop]. *)
Definition simple_op {V} (o : lop V) : Prop :=
  match o with
  | LUpdate _ | LIAdd _ | LPlus _ | LCompare _ _ | LSlice _ | LCopy | LMul _ | LReduce => False
  | _ => True
  end.
Definition wop_ok {V} (o : wop V) : Prop :=
  match o with WOp _ o => simple_op o /\ lop_ok o | _ => True end.

Fixpoint replace {A} (l : list A) (i : nat) (x : A) : list A :=
  match l, i with
  | [], _ => []
  | _ :: t, O => x :: t
  | y :: t, S i => y :: replace t i x
  end.

Section Ref.
  Context {V X : Type}.
  (** One SortedList as a value of type [X]: its operations, the constructor, the values it iterates over. *)
  Variable step : lop V -> X -> out V * X.
  Variable fresh : list V -> res X.
  Variable cont : X -> list V.
  (** The SortedLists, the program's lists. *)
  Notation RW := (list X * list (list V))%type.

  Definition r_arg (w : RW) (a : warg) : res (list V) :=
    match a with WUser i => getn (snd w) i | WObj j => let! x := getn (fst w) j in Ok (cont x) end.
  (** An operation that acts on the [i]-th SortedList. *)
  Definition r_on (i : nat) (o : lop V) (w : RW) : out V * RW :=
    match getn (fst w) i with
    | Ok x => let (r, x') := step o x in (r, (replace (fst w) i x', snd w))
    | Err e => (RExn e, w)
    end.
  (** An operation that makes a new SortedList out of the [i]-th. *)
  Definition r_new (i : nat) (o : lop V) (w : RW) : out V * RW :=
    match getn (fst w) i with
    | Ok x => match step o x with
              | (RExn e, _) => (RExn e, w)
              | (r, x') => (r, (fst w ++ [x'], snd w))
              end
    | Err e => (RExn e, w)
    end.
  Definition r_with (a : warg) (f : list V -> RW -> out V * RW) (w : RW) : out V * RW :=
    match r_arg w a with Ok x => f x w | Err e => (RExn e, w) end.

  Definition r_step (o : wop V) (w : RW) : out V * RW :=
    match o with
    | WList l => (RUnit, (fst w, snd w ++ [l]))
    | WMutate i l => match getn (snd w) i with Ok _ => (RUnit, (fst w, replace (snd w) i l)) | Err e => (RExn e, w) end
    | WLook i => match getn (snd w) i with Ok l => (RList l, w) | Err e => (RExn e, w) end
    | WNew a => r_with a (fun l w => match fresh l with Ok x => (RUnit, (fst w ++ [x], snd w)) | Err e => (RExn e, w) end) w
    | WOp i o => r_on i o w
    | WUpdate i a => r_with a (fun x => r_on i (LUpdate x)) w
    | WIAdd i a => r_with a (fun x => r_on i (LIAdd x)) w
    | WCompare i op a => r_with a (fun x => r_on i (LCompare op x)) w
    | WSlice i sl =>
        match r_on i (LSlice sl) w with
        | (RList l, w) => (RList l, (fst w, snd w ++ [l]))
        | p => p
        end
    | WCopy i => r_new i LCopy w
    | WPlus i a => r_with a (fun x => r_new i (LPlus x)) w
    | WMul i n => r_new i (LMul n) w
    | WReduce i => r_new i LReduce w
    end.
  Definition r_run := run r_step.
End Ref.

(** Each SortedList a sorted Python list ... *)
Definition list_world {V} (ltb eqb : V -> V -> bool) :=
  r_run (sp_step ltb eqb ltb) (fun l => Ok (sp_sort ltb l)) (fun l => l).
(** ... or the value the other files of this development study, with comparisons that may raise or be inconsistent. *)
Definition value_world {V} (lt eq : V -> V -> res bool) (dflt : nat) :=
  r_run (sl_step lt eq dflt) (sl_new lt dflt) contents.
