(** * The sorted list inside a SortedSet or SortedDict

    [SortedList(iterable, key=key)] builds a [SortedList] when [key] is [None] and a
    [SortedKeyList] otherwise ([SortedList.__new__], sortedlist.py:118-154).  SortedSet and
    SortedDict call a fixed collection of methods on that object; [listcls] is that collection,
    [plain] and [keyed] are its two instances. *)
From Verif Require Import PyBase Model History.
Local Set Implicit Arguments.

(** Methods that SortedSet (sortedset.py:141-154) and SortedDict (sorteddict.py:156-168)
    expose directly. *)
Inductive fwd (V K : Type) : Type :=
| FBisectLeft (v : V)
| FBisectRight (v : V)           (** also [bisect] *)
| FIndex (v : V) (start stop : option Z)
| FIRange (mn mx : option V) (imin imax reverse : bool)
| FISlice (start stop : option Z) (reverse : bool)
| FReset (ld : nat)
| FBisectKeyLeft (k : K)         (** the key variants exist only with a key function *)
| FBisectKeyRight (k : K)        (** also [bisect_key] *)
| FIRangeKey (mn mx : option K) (imin imax reverse : bool).
Arguments FBisectLeft {V K}. Arguments FBisectRight {V K}. Arguments FIndex {V K}.
Arguments FIRange {V K}. Arguments FISlice {V K}. Arguments FReset {V K}.
Arguments FBisectKeyLeft {V K}. Arguments FBisectKeyRight {V K}. Arguments FIRangeKey {V K}.

Definition fwd_op {V K} (f : fwd V K) : kop V K :=
  match f with
  | FBisectLeft v => KList (LBisectLeft v)
  | FBisectRight v => KList (LBisectRight v)
  | FIndex v a b => KList (LIndex v a b)
  | FIRange mn mx a b r => KList (LIRange mn mx a b r)
  | FISlice a b r => KList (LISlice a b r)
  | FReset ld => KList (LReset ld)
  | FBisectKeyLeft k => KBisectLeft k
  | FBisectKeyRight k => KBisectRight k
  | FIRangeKey mn mx a b r => KIRange mn mx a b r
  end.

Record listcls (S V K : Type) : Type := mkcls {
  l_new : list V -> res S;
  l_add : V -> M S unit;
  l_clear : M S unit;
  l_update : list V -> M S unit;
  l_remove : V -> M S unit;
  l_pop : Z -> M S V;
  l_get : Z -> M S V;
  l_slice : slice -> M S (list V);
  l_del : Z -> M S unit;
  l_del_slice : slice -> M S unit;
  l_iter : M S (list V);
  l_reversed : M S (list V);
  l_len : M S nat;
  l_check : S -> res unit;
  l_fwd : fwd V K -> S -> out V * S }.

(** No key function: class SortedList.  The key variants of the exposed methods are not set
    (sortedset.py:150, sorteddict.py:164), so using them is an AttributeError. *)
Definition plain {V K} (lt eq : V -> V -> res bool) (dflt : nat) : listcls (core V V) V K :=
  {| l_new := sl_new lt dflt;
     l_add := sl_add lt;
     l_clear := sl_clear;
     l_update := sl_update lt;
     l_remove := sl_remove lt eq;
     l_pop := pop (sl_vt lt);
     l_get := getitem_int;
     l_slice := getitem_slice;
     l_del := delitem_int (sl_vt lt);
     l_del_slice := delitem_slice (sl_vt lt);
     l_iter := iter;
     l_reversed := reversed;
     l_len := length_of;
     l_check := sl_check lt eq;
     l_fwd f s := match fwd_op f with
                  | KList o => sl_step lt eq dflt o s
                  | _ => (RExn AttributeError, s)
                  end |}.

(** With a key function: class SortedKeyList.  [vlt] ([<] on values) is not used by the methods
    collected here. *)
Definition keyed {V K} (eq : V -> V -> res bool) (klt keq : K -> K -> res bool) (kf : V -> res K)
    (dflt : nat) : listcls (skl V K) V K :=
  let T := skl_vt klt kf in
  {| l_new := skl_new klt kf dflt;
     l_add := skl_add klt kf;
     l_clear := skl_clear;
     l_update := skl_update klt kf;
     l_remove := skl_remove eq klt keq kf;
     l_pop := pop T;
     l_get i := oncore T (getitem_int i);
     l_slice sl := oncore T (getitem_slice sl);
     l_del := delitem_int T;
     l_del_slice := delitem_slice T;
     l_iter := oncore T iter;
     l_reversed := oncore T reversed;
     l_len := oncore T length_of;
     l_check := skl_check klt keq kf;
     l_fwd f s := skl_step eq eq klt keq kf dflt (fwd_op f) s |}.
