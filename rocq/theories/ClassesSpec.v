(** * What objects a program should get from constructors and methods

    Every object is a class, a key function or none, and a value: a list, the list in which a set is iterated, the items of a dict. *)
From Coq Require Import String.
From Verif Require Import PyBase Model Spec History ListClass ClassSpec ModelSet SetSpec ModelDict DictSpec ModelClass.
Local Set Implicit Arguments.

Section Ref.
  Context {V K B F : Type}.
  Variables ltb eqb : V -> V -> bool.
  Variable kltb : K -> K -> bool.
  Variable key : F -> V -> K.
  Variable ident : F.
  Variable veqb : B -> B -> bool.
  Variable vtext : V -> res string.
  Variable btext : B -> res string.
  Variable ftext : F -> res string.
  Variable user_name : nat -> string.

  Inductive rval : Type := VList (l : list V) | VSet (l : list V) | VDict (d : list (V * B)).
  Record robj : Type := mkrobj { r_class : pclass; r_key : option F; r_val : rval }.

  (** Values are compared by [<], or their keys are. *)
  Definition less (k : option F) : V -> V -> bool := match k with None => ltb | Some f => by_key (key f) kltb end.
  Definition exposed (k : option F) : fwd V K -> list V -> out V * list V :=
    match k with None => fwd_plain ltb eqb | Some f => fwd_keyed (key f) kltb eqb end.

  (** ** Constructors *)

  (** The class and key function of a list. *)
  Inductive list_kind : lclass -> given F -> res (lclass * option F) -> Prop :=
  | kind_no_key : forall u, list_kind (mklclass false u) Omitted (Ok (mklclass false u, None))
  | kind_key_none : forall u, list_kind (mklclass false u) (Given None) (Ok (mklclass false u, None))
  | kind_key : forall f, list_kind SortedList_ (Given (Some f)) (Ok (SortedKeyList_, Some f))
  | kind_sub_key : forall n f, list_kind (mklclass false (Some n)) (Given (Some f)) (Err TypeError)
  | kind_key_list : forall u, list_kind (mklclass true u) Omitted (Ok (mklclass true u, Some ident))
  | kind_key_list_key : forall u f, list_kind (mklclass true u) (Given (Some f)) (Ok (mklclass true u, Some f)).

  (** The key function and the items with which a SortedDict is made. *)
  Definition first_key (args : list (parg (V:=V) (B:=B) (F:=F))) : option F :=
    match args with (PFun f | PBoth f _) :: _ => Some f | _ => None end.
  Definition after_key (args : list (parg (V:=V) (B:=B) (F:=F))) : list (parg (V:=V) (B:=B) (F:=F)) :=
    match args with PData _ :: _ => args | _ => tl args end.
  Inductive dict_items : list (parg (V:=V) (B:=B) (F:=F)) -> res (list (V * B)) -> Prop :=
  | items_none : dict_items [] (Ok [])
  | items_data : forall a, dict_items [PData a] (Ok (pairs_of a))
  | items_both : forall f a, dict_items [PBoth f a] (Ok (pairs_of a))
  | items_no_data : forall x t, (x = PNone \/ exists f, x = PFun f) -> dict_items (x :: t) (Err TypeError)
  | items_more : forall x y t, dict_items (x :: y :: t) (Err TypeError).

  Inductive calls : pcall (V:=V) (B:=B) (F:=F) -> res robj -> Prop :=
  | calls_list : forall cls it k c f, list_kind cls k (Ok (c, f)) ->
      calls (CList cls it k) (Ok (mkrobj (PList c) f (VList (sp_sort (less f) (match it with Some l => l | None => [] end)))))
  | calls_list_err : forall cls it k e, list_kind cls k (Err e) -> calls (CList cls it k) (Err e)
  | calls_set : forall cls it k f t l, k = Given f \/ k = Omitted /\ f = None ->
      sorted (less f) l -> distinct eqb l -> (forall x, member eqb x l <-> exists a, it = Some a /\ member eqb x (items a)) ->
      calls (CSet cls it k t) (Ok (mkrobj (PSet cls) f (VSet l)))
  | calls_dict : forall cls args kw ps, dict_items (after_key args) (Ok ps) ->
      calls (CDict cls args kw) (Ok (mkrobj (PDict cls) (first_key args) (VDict (merge eqb [] (ps ++ kw)))))
  | calls_dict_err : forall cls args kw e, dict_items (after_key args) (Err e) -> calls (CDict cls args kw) (Err e)
  | calls_fromkeys : forall cls l v, calls (CFromKeys cls l v) (Ok (mkrobj (PDict cls) None (VDict (merge eqb [] (map (fun k => (k, v)) l))))).

  (** ** Text: [Name(values)], [Name(values, key=key)], [Name({items})], [Name(key, {items})] *)
  Local Open Scope string_scope.
  Definition class_name (c : pclass) : string :=
    match c with
    | PList (mklclass _ (Some n)) | PSet (Some n) | PDict (Some n) => user_name n
    | PList (mklclass false None) => "SortedList"
    | PList (mklclass true None) => "SortedKeyList"
    | PSet None => "SortedSet"
    | PDict None => "SortedDict"
    end.
  Definition values_text (l : list V) (t : string) : Prop := exists ts, mapR vtext l = Ok ts /\ t = "[" ++ String.concat ", " ts ++ "]".
  Definition items_text (l : list (V * B)) (t : string) : Prop :=
    exists ks vs, mapR vtext (map fst l) = Ok ks /\ mapR btext (map snd l) = Ok vs /\
      t = "{" ++ String.concat ", " (map (fun p => fst p ++ ": " ++ snd p) (List.combine ks vs)) ++ "}".
  Inductive text_of : robj -> string -> Prop :=
  | text_values : forall c l t v, v = VList l \/ v = VSet l -> values_text l t -> text_of (mkrobj c None v) (class_name c ++ "(" ++ t ++ ")")
  | text_values_key : forall c f k l t v, v = VList l \/ v = VSet l -> ftext f = Ok k -> values_text l t ->
      text_of (mkrobj c (Some f) v) (class_name c ++ "(" ++ t ++ ", key=" ++ k ++ ")")
  | text_items : forall c d t, items_text (listing ltb d) t -> text_of (mkrobj c None (VDict d)) (class_name c ++ "(" ++ t ++ ")")
  | text_items_key : forall c f k d t, ftext f = Ok k -> items_text (listing (less (Some f)) d) t ->
      text_of (mkrobj c (Some f) (VDict d)) (class_name c ++ "(" ++ k ++ ", " ++ t ++ ")").
  (** An exception that [repr] of something inside raises. *)
  Definition text_raises (x : robj) (e : exn) : Prop :=
    (exists f, r_key x = Some f /\ ftext f = Err e) \/
    (exists v, vtext v = Err e /\ match r_val x with VList l | VSet l => In v l | VDict d => In v (map fst d) end) \/
    (exists b, btext b = Err e /\ match r_val x with VDict d => In b (map snd d) | _ => False end).
  Local Close Scope string_scope.

  (** ** Methods *)
  Definition list_eff (k : option F) (o : kop V K) (l : list V) : out V * list V :=
    match k with
    | None => match o with KList o => sp_step ltb eqb ltb o l | _ => (RExn AttributeError, l) end
    | Some f => sp_kstep eqb ltb (key f) kltb o l
    end.
  (** The methods that give a new object. *)
  Definition new_list (o : kop V K) : Prop := match o with KList (LCopy | LPlus _ | LMul _ | LReduce) => True | _ => False end.
  Definition new_set (o : sop V K) : Prop :=
    match o with SUnion _ | SDifference _ | SIntersection _ | SSymmetricDifference _ | SCopy | SReduce => True | _ => False end.
  Definition new_dict (o : dop V B K) : Prop := match o with DOr _ | DROr _ | DCopy | DReduce _ => True | _ => False end.
  Definition set_obj (i : nat) (x : robj) (w : list robj) : list robj := firstn i w ++ x :: skipn (Datatypes.S i) w.

  Inductive ref_prog : pop_ (V:=V) (K:=K) (B:=B) (F:=F) -> list robj -> pout (V:=V) (B:=B) (F:=F) -> list robj -> Prop :=
  | rp_call : forall c w x, calls c (Ok x) -> ref_prog (PCall c) w (UMade) (w ++ [x])
  | rp_call_err : forall c w e, calls c (Err e) -> ref_prog (PCall c) w (UExn e) w
  | rp_type : forall i w x, nth_error w i = Some x -> ref_prog (PType i) w (UType (r_class x)) w
  | rp_key : forall i w x, nth_error w i = Some x -> ref_prog (PKey i) w (UKey (r_key x)) w
  | rp_text : forall i w x t, nth_error w i = Some x -> text_of x t -> ref_prog (PRepr i) w (UText t) w
  | rp_text_err : forall i w x e, nth_error w i = Some x -> text_raises x e -> ref_prog (PRepr i) w (UExn e) w
  | rp_list : forall i w c k l o r l', nth_error w i = Some (mkrobj c k (VList l)) -> ~ new_list o -> list_eff k o l = (r, l') ->
      ref_prog (PListOp i o) w (UOut r) (set_obj i (mkrobj c k (VList l')) w)
  | rp_list_new : forall i w c k l o r l', nth_error w i = Some (mkrobj c k (VList l)) -> new_list o -> list_eff k o l = (r, l') ->
      ref_prog (PListOp i o) w (UMade) (w ++ [mkrobj c k (VList l')])
  | rp_set : forall i w c k l o r l', nth_error w i = Some (mkrobj c k (VSet l)) -> ~ new_set o -> set_effect eqb (exposed k) o l r l' ->
      sorted (less k) l' -> distinct eqb l' ->
      ref_prog (PSetOp i o) w (UOut r) (set_obj i (mkrobj c k (VSet l')) w)
  | rp_set_new : forall i w c k l o r l', nth_error w i = Some (mkrobj c k (VSet l)) -> new_set o -> set_effect eqb (exposed k) o l r l' ->
      sorted (less k) l' -> distinct eqb l' ->
      ref_prog (PSetOp i o) w (UMade) (w ++ [mkrobj c k (VSet l')])
  | rp_dict : forall i w c k d o r d', nth_error w i = Some (mkrobj c k (VDict d)) -> ~ new_dict o ->
      ref_step (less k) eqb veqb (exposed k) o d = (r, d') ->
      ref_prog (PDictOp i o) w (UDict r) (set_obj i (mkrobj c k (VDict d')) w)
  | rp_dict_new : forall i w c k d o r d', nth_error w i = Some (mkrobj c k (VDict d)) -> new_dict o ->
      ref_step (less k) eqb veqb (exposed k) o d = (r, d') ->
      ref_prog (PDictOp i o) w (UMade) (w ++ [mkrobj c k (VDict d')])
  (** There is no such object, or the operation is not one of its class. *)
  | rp_no_object : forall o i w, (o = PType i \/ o = PKey i \/ o = PRepr i \/ (exists x, o = PListOp i x) \/ (exists x, o = PSetOp i x) \/ (exists x, o = PDictOp i x)) ->
      nth_error w i = None -> ref_prog o w (UExn IndexError) w
  | rp_no_method : forall o i w x, nth_error w i = Some x ->
      match r_val x with
      | VList _ => (exists s, o = PSetOp i s) \/ exists d, o = PDictOp i d
      | VSet _ => (exists l, o = PListOp i l) \/ exists d, o = PDictOp i d
      | VDict _ => (exists l, o = PListOp i l) \/ exists s, o = PSetOp i s
      end -> ref_prog o w UOther w.
  Inductive ref_progs : list (pop_ (V:=V) (K:=K) (B:=B) (F:=F)) -> list robj -> list (pout (V:=V) (B:=B) (F:=F)) -> list robj -> Prop :=
  | rps_nil : forall w, ref_progs [] w [] w
  | rps_cons : forall o ops w r w1 rs w2, ref_prog o w r w1 -> ref_progs ops w1 rs w2 -> ref_progs (o :: ops) w (r :: rs) w2.

  (** [SortedKeyList(..., key=None)] is left out; the other conditions are those of single objects. *)
  Definition pop_ok (o : pop_ (V:=V) (K:=K) (B:=B) (F:=F)) : Prop :=
    match o with
    | PCall (CList cls _ k) => c_keyed cls = true -> k <> Given None
    | PListOp _ o => kop_ok o
    | PSetOp _ o => sop_ok o
    | PDictOp _ o => dop_ok eqb o
    | _ => True
    end.
End Ref.
