(** * Properties of constructors: classes, key functions and text of objects *)
From Coq Require Import String.
From Verif Require Import PyBase Model Spec History Reach ListClass ClassSpec ModelSet SetSpec ModelDict DictSpec ModelClass ClassesSpec Concrete ConcreteCompare ClassesProps.

(** C95: a program calls the constructors of the four classes, and of subclasses that override nothing, and methods of the objects.
    Every object it gets, from a constructor or from a method, has the class and key function it should have, and the contents;
    [type], [key] and [repr] tell them. *)
Theorem C95_programs : forall (V K B F : Type) (ltb eqb : V -> V -> bool) (kltb keqb : K -> K -> bool) (key : F -> V -> K) (ident : F) (dflt : nat)
  (ord : nat -> list V -> list V) (veqb : B -> B -> bool) (vtext : V -> res string) (btext : B -> res string) (ftext : F -> res string) (user_name : nat -> string)
  (ops : list (pop_ (V:=V) (K:=K) (B:=B) (F:=F))),
  TotalOrder ltb eqb -> TotalOrder kltb keqb -> (forall f, EqCompat (by_key (key f) kltb) eqb) -> 1 <= dflt -> any_order ord -> Forall (pop_ok eqb) ops ->
  exists w, ref_progs ltb eqb kltb key ident veqb vtext btext ftext user_name ops []
    (fst (prog_run (total2 ltb) (total2 eqb) (total2 kltb) (total2 keqb) (fun f => total1 (key f)) ident dflt eqb ord veqb vtext btext ftext user_name ops [])) w.
Proof. exact c95_programs. Qed.
Print Assumptions C95_programs.

Example C95_programs_case :
  let ops := [PCall (CList SortedList_ (Some [12; 31; 21]) (Given (Some true))); PListOp 0 (KList LCopy); PListOp 1 (KList (LAdd 11)); PType 1; PKey 1;
    PRepr 1; PRepr 0; PCall (CList (mklclass false (Some 5)) None (Given (Some true)));
    PCall (CSet (Some 5) (Some (AIter [12; 31; 12])) (Given None) 0); PSetOp 2 (SUnion [AIter [7]]); PType 3; PRepr 3;
    PCall (CDict None [PFun true; PData (APairs [(12, 1); (31, 2)])] []); PDictOp 4 (DOr [(12, 3)]); PRepr 5; PKey 5;
    PCall (CList SortedKeyList_ (Some [2]) Omitted); PRepr 6] : list (pop_ (V:=nat) (K:=nat) (B:=nat) (F:=bool)) in
  TotalOrder Nat.ltb Nat.eqb /\ (forall f, EqCompat (by_key (two_keys f) Nat.ltb) Nat.eqb) /\ any_order back /\ Forall (pop_ok Nat.eqb) ops /\
  fst (prog_run (total2 Nat.ltb) (total2 Nat.eqb) (total2 Nat.ltb) (total2 Nat.eqb) (fun f => total1 (two_keys f)) false 2 Nat.eqb back Nat.eqb
    two_digits two_digits key_text sub_name ops []) =
  [UMade; UMade; UOut RUnit; UType (PList SortedKeyList_); UKey (Some true); UText "SortedKeyList([31, 21, 11, 12], key=last)";
    UText "SortedKeyList([31, 21, 12], key=last)"; UExn TypeError; UMade; UMade; UType (PSet (Some 5)); UText "Sub([07, 12, 31])"; UMade; UMade;
    UText "SortedDict(last, {31: 02, 12: 03})"; UKey (Some true); UMade; UExn ValueError].
Proof.
  cbv zeta. split; [apply nat_total|]. split; [exact two_keys_compat|]. split; [apply back_order|]. split; [repeat constructor; discriminate|].
  vm_compute. reflexivity.
Qed.

(** C95, the remaining case: [SortedKeyList(iterable, key=None)] raises [TypeError], unless there is nothing in [iterable]. *)
Theorem C95_key_list_key_none : forall (V K F : Type) (ltb eqb : V -> V -> bool) (klt : K -> K -> res bool) (den : F -> V -> res K) (ident : F) (dflt : nat)
  (cls : lclass) (it : option (list V)), TotalOrder ltb eqb -> c_keyed cls = true ->
  match it with
  | None | Some [] => exists x, construct (total2 ltb) klt den ident dflt cls it (Given None) = Ok x /\ o_class x = cls /\ values_of (o_state x) = []
  | Some _ => construct (total2 ltb) klt den ident dflt cls it (Given None) = Err TypeError
  end.
Proof. exact c95_key_list_key_none. Qed.
Print Assumptions C95_key_list_key_none.

Example C95_key_list_key_none_case :
  nconstruct SortedKeyList_ (Some [2; 1]) (Given None) = Err TypeError /\ nconstruct SortedKeyList_ None (Given None) = Ok (mklobj SortedKeyList_ LNone) /\
  TotalOrder Nat.ltb Nat.eqb.
Proof. split; [vm_compute; reflexivity|]. split; [vm_compute; reflexivity|apply nat_total]. Qed.

(** C96 is false: [SortedDict(m)] has not the items of [m] if [m] can be called, but is empty and has [m] for its key function. *)
Theorem C96_callable_mapping_refuted : ~ (forall (V K B F : Type) (ltb eqb : V -> V -> bool) (kltb keqb : K -> K -> bool) (key : F -> V -> K) (ident : F) (dflt : nat)
  (args : list (parg (V:=V) (B:=B) (F:=F))) (a : darg V B),
  TotalOrder ltb eqb -> TotalOrder kltb keqb -> (forall f, EqCompat (by_key (key f) kltb) eqb) -> 1 <= dflt ->
  args = [PData a] \/ (exists f, args = [PBoth f a]) ->
  exists x, dict_new (total2 ltb) (total2 eqb) (total2 kltb) (total2 keqb) (fun f => total1 (key f)) ident dflt eqb None args [] = Ok x /\
    d_items (do_dict x) = merge eqb [] (pairs_of a)).
Proof. exact c96_callable_mapping. Qed.
Print Assumptions C96_callable_mapping_refuted.

Example C96_callable_mapping_case :
  match ndict_new None [PBoth true (ADict [(1, 11)])] [] with Ok x => d_items (do_dict x) = [] /\ do_key x = Some true | Err _ => False end.
Proof. vm_compute. split; reflexivity. Qed.

(** C96 is false: [SortedKeyList(l, key=None)] does not sort by the values, as [SortedList(l, key=None)] does. *)
Theorem C96_key_none_refuted : ~ (forall (V K F : Type) (ltb eqb : V -> V -> bool) (kltb keqb : K -> K -> bool) (key : F -> V -> K) (ident : F) (dflt : nat)
  (cls : lclass) (l : list V), TotalOrder ltb eqb -> TotalOrder kltb keqb -> (forall f, EqCompat (by_key (key f) kltb) eqb) -> 1 <= dflt ->
  exists x, construct (total2 ltb) (total2 kltb) (fun f => total1 (key f)) ident dflt cls (Some l) (Given None) = Ok x /\ values_of (o_state x) = sp_sort ltb l).
Proof. exact c96_key_none. Qed.
Print Assumptions C96_key_none_refuted.

Example C96_key_none_case :
  nconstruct SortedKeyList_ (Some [2; 1]) (Given None) = Err TypeError /\
  match nconstruct SortedList_ (Some [2; 1]) (Given None) with Ok x => values_of (o_state x) = [1; 2] | Err _ => False end.
Proof. vm_compute. split; reflexivity. Qed.
