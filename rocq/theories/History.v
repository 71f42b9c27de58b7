(** * Histories of public operations on SortedList and SortedKeyList

    [lop] enumerates the public operations; [sl_run] / [skl_run] execute a
    history on the model, [sp_run] on the reference list. *)
From Verif Require Import PyBase Model Spec.
Local Set Implicit Arguments.

Inductive lop (V : Type) : Type :=
| LAdd (v : V)
| LUpdate (it : list V)
| LClear
| LDiscard (v : V)
| LRemove (v : V)
| LContains (v : V)
| LGet (i : Z)
| LSlice (sl : slice)
| LDel (i : Z)
| LDelSlice (sl : slice)
| LPop (i : Z)
| LLen
| LIter
| LReversed
| LBisectLeft (v : V)
| LBisectRight (v : V)
| LCount (v : V)
| LIndex (v : V) (start stop : option Z)
| LIRange (mn mx : option V) (imin imax reverse : bool)
| LISlice (start stop : option Z) (reverse : bool)
| LReset (ld : nat)
| LIAdd (it : list V)      (** [sl += it] *)
| LIMul (n : Z)            (** [sl *= n] *)
| LCopy                    (** [sl = sl.copy()] *)
| LPlus (it : list V)      (** [sl = sl + it] *)
| LMul (n : Z)             (** [sl = sl * n] *)
| LReduce                  (** [sl = pickle.loads(pickle.dumps(sl))] *)
| LCompare (op : cmpop) (other : list V)
| LUnsupported.            (** [sl[i] = v], [append], [extend], [insert], [reverse] *)
Arguments LClear {V}. Arguments LGet {V}. Arguments LSlice {V}. Arguments LDel {V}.
Arguments LDelSlice {V}. Arguments LPop {V}. Arguments LLen {V}. Arguments LIter {V}.
Arguments LReversed {V}. Arguments LISlice {V}. Arguments LReset {V}. Arguments LIMul {V}.
Arguments LCopy {V}. Arguments LMul {V}. Arguments LReduce {V}. Arguments LUnsupported {V}.

(** Operations only SortedKeyList has. *)
Inductive kop (V K : Type) : Type :=
| KList (o : lop V)
| KBisectLeft (k : K)
| KBisectRight (k : K)
| KIRange (mn mx : option K) (imin imax reverse : bool).
Arguments KList {V K}. Arguments KBisectLeft {V K}. Arguments KBisectRight {V K}.
Arguments KIRange {V K}.

(** Load factors given to [_reset] are positive. *)
Definition lop_ok {V} (o : lop V) : Prop :=
  match o with LReset ld => 1 <= ld | _ => True end.
Definition kop_ok {V K} (o : kop V K) : Prop :=
  match o with KList o => lop_ok o | _ => True end.

(** What the caller observes. *)
Inductive out (V : Type) : Type :=
| RUnit
| RBool (b : bool)
| RNat (n : nat)
| RVal (v : V)
| RList (l : list V)
| RExn (e : exn).
Arguments RUnit {V}. Arguments RBool {V}. Arguments RNat {V}. Arguments RExn {V}.

Section Steps.
  Context {S V A : Type}.
  Definition observe (inj : A -> out V) (m : M S A) (s : S) : out V * S :=
    match m s with
    | (Ok a, s') => (inj a, s')
    | (Err e, s') => (RExn e, s')
    end.
  (** [obj = <expression building a new object>] *)
  Definition rebind (m : M S S) (s : S) : out V * S :=
    match m s with
    | (Ok n, _) => (RUnit, n)
    | (Err e, s') => (RExn e, s')
    end.
  Definition of_res (inj : A -> out V) (r : res A) : out V :=
    match r with Ok a => inj a | Err e => RExn e end.
End Steps.

Definition runit {V} (_ : unit) : out V := RUnit.

Section Run.
  Context {S Op Out : Type}.
  Variable step : Op -> S -> Out * S.
  Fixpoint run (ops : list Op) (s : S) : list Out * S :=
    match ops with
    | [] => ([], s)
    | o :: t =>
        let (r, s1) := step o s in
        let (rs, s2) := run t s1 in
        (r :: rs, s2)
    end.
End Run.

Section Exec.
  Context {V : Type}.
  Variables lt eq : V -> V -> res bool.
  Variable dflt : nat.

  (** One public operation on a [SortedList]. *)
  Definition sl_step (o : lop V) (s : core V V) : out V * core V V :=
    let T := sl_vt lt in
    match o with
    | LAdd v => observe runit (sl_add lt v) s
    | LUpdate it => observe runit (sl_update lt it) s
    | LClear => observe runit sl_clear s
    | LDiscard v => observe runit (sl_discard lt eq v) s
    | LRemove v => observe runit (sl_remove lt eq v) s
    | LContains v => observe (@RBool V) (sl_contains lt eq v) s
    | LGet i => observe (@RVal V) (getitem_int i) s
    | LSlice sl => observe (@RList V) (getitem_slice sl) s
    | LDel i => observe runit (delitem_int T i) s
    | LDelSlice sl => observe runit (delitem_slice T sl) s
    | LPop i => observe (@RVal V) (pop T i) s
    | LLen => observe (@RNat V) length_of s
    | LIter => observe (@RList V) iter s
    | LReversed => observe (@RList V) reversed s
    | LBisectLeft v => observe (@RNat V) (sl_bisect_left lt v) s
    | LBisectRight v => observe (@RNat V) (sl_bisect_right lt v) s
    | LCount v => observe (@RNat V) (sl_count lt v) s
    | LIndex v a b => observe (@RNat V) (sl_index lt eq v a b) s
    | LIRange mn mx a b r => observe (@RList V) (sl_irange lt mn mx a b r) s
    | LISlice a b r => observe (@RList V) (islice a b r) s
    | LReset ld => observe runit (reset T ld) s
    | LIAdd it => observe runit (iadd T it) s
    | LIMul n => observe runit (imul T n) s
    | LCopy => rebind (sl_copy lt dflt) s
    | LPlus it => rebind (sl_plus lt dflt it) s
    | LMul n => rebind (sl_mul lt dflt n) s
    | LReduce => rebind (sl_reduce lt dflt) s
    | LCompare op other => observe (@RBool V) (compare lt eq op other) s
    | LUnsupported => observe runit unsupported s
    end.
  Definition sl_run := run sl_step.
  (** A fresh [SortedList()]. *)
  Definition sl_init : core V V := core_empty dflt.
End Exec.

Section ExecKey.
  Context {V K : Type}.
  (** [vlt] ([<] on values) is only used by comparisons of whole lists. *)
  Variables vlt eq : V -> V -> res bool.
  Variables klt keq : K -> K -> res bool.
  Variable kf : V -> res K.
  Variable dflt : nat.

  (** One public operation on a [SortedKeyList]. *)
  Definition skl_lstep (o : lop V) (s : skl V K) : out V * skl V K :=
    let T := skl_vt klt kf in
    match o with
    | LAdd v => observe runit (skl_add klt kf v) s
    | LUpdate it => observe runit (skl_update klt kf it) s
    | LClear => observe runit skl_clear s
    | LDiscard v => observe runit (skl_discard eq klt keq kf v) s
    | LRemove v => observe runit (skl_remove eq klt keq kf v) s
    | LContains v => observe (@RBool V) (skl_contains eq klt keq kf v) s
    | LGet i => observe (@RVal V) (oncore T (getitem_int i)) s
    | LSlice sl => observe (@RList V) (oncore T (getitem_slice sl)) s
    | LDel i => observe runit (delitem_int T i) s
    | LDelSlice sl => observe runit (delitem_slice T sl) s
    | LPop i => observe (@RVal V) (pop T i) s
    | LLen => observe (@RNat V) (oncore T length_of) s
    | LIter => observe (@RList V) (oncore T iter) s
    | LReversed => observe (@RList V) (oncore T reversed) s
    | LBisectLeft v => observe (@RNat V) (skl_bisect_left klt kf v) s
    | LBisectRight v => observe (@RNat V) (skl_bisect_right klt kf v) s
    | LCount v => observe (@RNat V) (skl_count eq klt keq kf v) s
    | LIndex v a b => observe (@RNat V) (skl_index eq klt keq kf v a b) s
    | LIRange mn mx a b r => observe (@RList V) (skl_irange klt kf mn mx a b r) s
    | LISlice a b r => observe (@RList V) (oncore T (islice a b r)) s
    | LReset ld => observe runit (reset T ld) s
    | LIAdd it => observe runit (iadd T it) s
    | LIMul n => observe runit (imul T n) s
    | LCopy => rebind (skl_copy klt kf dflt) s
    | LPlus it => rebind (skl_plus klt kf dflt it) s
    | LMul n => rebind (skl_mul klt kf dflt n) s
    | LReduce => rebind (skl_reduce klt kf dflt) s
    | LCompare op other => observe (@RBool V) (oncore T (compare vlt eq op other)) s
    | LUnsupported => observe runit unsupported s
    end.
  Definition skl_step (o : kop V K) (s : skl V K) : out V * skl V K :=
    match o with
    | KList o => skl_lstep o s
    | KBisectLeft k => observe (@RNat V) (skl_bisect_key_left klt kf k) s
    | KBisectRight k => observe (@RNat V) (skl_bisect_key_right klt kf k) s
    | KIRange mn mx a b r => observe (@RList V) (skl_irange_key klt mn mx a b r) s
    end.
  Definition skl_run := run skl_step.
  (** A fresh [SortedKeyList(key=kf)]. *)
  Definition skl_init : skl V K := skl_empty dflt.
End ExecKey.

(** ** The reference list *)
Section RefStep.
  Context {V : Type}.
  (** [ltb]: the order the container sorts by; [eqb]: equality of values;
      [vltb]: [<] on values, used to compare whole sequences. *)
  Variables ltb eqb vltb : V -> V -> bool.

  (** [==] and [!=] need no order on the values. *)
  Definition sp_compare (op : cmpop) (l o : list V) : bool :=
    match op with
    | Ceq => sp_eq eqb l o
    | Cne => negb (sp_eq eqb l o)
    | Clt => match lex vltb l o with Lt => true | _ => false end
    | Cgt => match lex vltb l o with Gt => true | _ => false end
    | Cle => match lex vltb l o with Gt => false | _ => true end
    | Cge => match lex vltb l o with Lt => false | _ => true end
    end.

  Definition sp_step (o : lop V) (l : list V) : out V * list V :=
    match o with
    | LAdd v => (RUnit, sp_add ltb v l)
    | LUpdate it | LIAdd it | LPlus it => (RUnit, sp_update ltb it l)
    | LClear => (RUnit, [])
    | LDiscard v => (RUnit, sp_discard eqb v l)
    | LRemove v => (of_res runit (fst (sp_remove eqb v l)), snd (sp_remove eqb v l))
    | LContains v => (RBool (sp_contains eqb v l), l)
    | LGet i => (of_res (@RVal V) (getz l i), l)
    | LSlice sl => (of_res (@RList V) (sp_slice sl l), l)
    | LDel i => match sp_del i l with Ok l' => (RUnit, l') | Err e => (RExn e, l) end
    | LDelSlice sl => match sp_del_slice sl l with Ok l' => (RUnit, l') | Err e => (RExn e, l) end
    | LPop i => match getz l i, sp_del i l with
                | Ok v, Ok l' => (RVal v, l')
                | _, _ => (RExn IndexError, l)
                end
    | LLen => (RNat (length l), l)
    | LIter => (RList l, l)
    | LReversed => (RList (rev l), l)
    | LBisectLeft v => (RNat (sp_bisect_left ltb v l), l)
    | LBisectRight v => (RNat (sp_bisect_right ltb v l), l)
    | LCount v => (RNat (sp_count eqb v l), l)
    | LIndex v a b => (of_res (@RNat V) (sp_index eqb v a b l), l)
    | LIRange mn mx a b r => (RList (sp_irange ltb mn mx a b r l), l)
    | LISlice a b r =>
        (of_res (fun x => RList (if r then rev x else x)) (sp_slice (mkslice a b None) l), l)
    | LReset _ => (RUnit, l)
    | LIMul n | LMul n => (RUnit, sp_sort ltb (sp_mul n l))
    | LCopy | LReduce => (RUnit, l)
    | LCompare op other => (RBool (sp_compare op l other), l)
    | LUnsupported => (RExn NotImplementedError, l)
    end.
  Definition sp_run := run sp_step.
End RefStep.

Section RefStepKey.
  Context {V K : Type}.
  Variables eqb vltb : V -> V -> bool.
  Variable key : V -> K.
  Variable kltb : K -> K -> bool.
  Definition sp_kstep (o : kop V K) (l : list V) : out V * list V :=
    match o with
    | KList o => sp_step (by_key key kltb) eqb vltb o l
    | KBisectLeft k => (RNat (sp_bisect_key_left key kltb k l), l)
    | KBisectRight k => (RNat (sp_bisect_key_right key kltb k l), l)
    | KIRange mn mx a b r => (RList (sp_irange_key key kltb mn mx a b r l), l)
    end.
  Definition sp_krun := run sp_kstep.
End RefStepKey.
