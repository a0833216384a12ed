(** Model of core/ds/string/BasicString.hpp as programs over Vector<char>.
    Characters are [Z] with NUL = 0.  String number [id] is the vector
    mCharList_d with id [8 + id]; vectors 0..7 are the temporaries and by-value
    parameters of one call.  A C string argument is the array it lives in
    ([buf]); reading past that array is undefined behaviour. *)
From Verif Require Import Base VectorModel VectorSpec VecProg.
Local Open Scope wprog_scope.

Inductive tout := TUnit | TNum (n : Z) | TBool (b : bool) | TChar (c : Z) | TChars (l : list Z).

Definition sv (id : nat) : nat := 8 + id.

(** BasicString(): BasicString.hpp 26-28. *)
Definition st_init (v : nat) : wprog Z unit := wunit (OFill v 1 0%Z) ;;; wunit (OResize v 15).

(** operator=(const BasicString&): 30-33 with core/common.hpp 34-40. *)
Definition st_assign (v u : nat) : wprog Z unit := if Nat.eqb v u then WRet tt else wunit (OAssign v u).
(** Copy constructor: core/common.hpp 35. *)
Definition st_copy_new (v u : nat) : wprog Z unit := st_init v ;;; st_assign v u.
(** operator=(BasicString&&): 35-38 with core/common.hpp 42-48. *)
Definition st_move (v u : nat) : wprog Z unit := if Nat.eqb v u then WRet tt else wunit (OMoveAssign v u).
(** Move constructor: core/common.hpp 43. *)
Definition st_move_new (v u : nat) : wprog Z unit := st_init v ;;; st_move v u.
(** Destructor: 48. *)
Definition st_destroy (v : nat) : wprog Z unit := wunit (ODestroy v).

(** The loop of BasicString(const char * str): 42-44; [rest] is the array from ++str on. *)
Fixpoint st_read (v : nat) (rest : list Z) : wprog Z unit :=
  match rest with
  | [] => WUB
  | c :: rest => if (c =? 0)%Z then WRet tt else wunit (OPush v c) ;;; st_read v rest
  end.
(** BasicString(const char * str): 40-46. *)
Definition st_from_c (v : nat) (buf : list Z) : wprog Z unit :=
  st_init v ;;;
  match buf with
  | [] => WUB
  | c :: rest => wset v (-1)%Z c ;;; st_read v rest ;;; wunit (OPush v 0%Z)
  end.
(** operator=(const char * str): 50-53 ([t]: the temporary). *)
Definition st_assign_c (t v : nat) (buf : list Z) : wprog Z unit :=
  st_from_c t buf ;;; st_move v t ;;; st_destroy t.

(** size(): 60-62, on size_t: a vector of size 0 gives 2^64 - 1. *)
Definition st_size (v : nat) : wprog Z Z := n <- wsize v ;; WRet ((Z.of_nat n - 1) mod 2 ^ 64)%Z.
(** empty(): 56-58. *)
Definition st_empty (v : nat) : wprog Z bool := n <- st_size v ;; WRet (n =? 0)%Z.
(** back(): 69-71; front(): 73-75; operator[]: 77-79, 87-89. *)
Definition st_back (v : nat) : wprog Z Z := wget v (-2)%Z.
Definition st_front (v : nat) : wprog Z Z := wval (OFront v).
Definition st_get (v : nat) (i : Z) : wprog Z Z := wget v i.
Definition st_set (v : nat) (i : Z) (c : Z) : wprog Z unit := wset v i c.
(** push_back: 82-85. *)
Definition st_push (v : nat) (c : Z) : wprog Z unit := wset v (-1)%Z c ;;; wunit (OPush v 0%Z).
(** clear: 91-95. *)
Definition st_clear (v : nat) : wprog Z unit := wunit (OClear v) ;;; wunit (OPush v 0%Z) ;;; wunit (OResize v 15).
(** Range-for over [begin(), end()) = [vector begin, vector end - 1): 98-112.
    On a vector of size 0 the end would lie before the begin. *)
Definition st_iter (v : nat) : wprog Z (list Z) :=
  l <- witer v ;; match l with [] => WUB | _ => WRet (removelast l) end.
(** Everything readable from c_str(): 115-117 (the address of element 0). *)
Definition st_cstr (v : nat) : wprog Z (list Z) := wget v 0%Z ;;; witer v.

(** The loop of operator+=: 123-125; str.mCharList_d.size() is read again in
    each round and the element is passed by reference. *)
Fixpoint st_append_loop (fuel v u i : nat) : wprog Z unit :=
  match fuel with
  | O => WDiverge
  | S f =>
      m <- wsize u ;;
      if Nat.ltb i m then wpush_elem v u (Z.of_nat i) ;;; st_append_loop f v u (S i) else WRet tt
  end.
(** operator+=(const BasicString &): 119-127.  With two vectors of size 0 the
    size_t sum wraps and resize would ask for 2^64 - 1 elements. *)
Definition st_append (v u : nat) : wprog Z unit :=
  cap <- wcap v ;; n <- wsize v ;; m <- wsize u ;;
  (if Nat.eqb (n + m) 0 then WUB
   else if Nat.ltb cap (n + m - 1) then wunit (OResize v (n + m - 1)) else WRet tt) ;;;
  c <- wget u 0%Z ;; wset v (-1)%Z c ;;;
  st_append_loop (S (n + m + cap)) v u 1.
(** operator+=(const char * str): 129-131. *)
Definition st_append_c (t v : nat) (buf : list Z) : wprog Z unit :=
  st_from_c t buf ;;; st_append v t ;;; st_destroy t.

(** operator+(BasicString s1, BasicString s2) on its parameters [p1], [p2]:
    139-142; [s] is the local, [r] the returned object (copied from the
    reference that += returns). *)
Definition st_plus_body (r s p1 p2 : nat) : wprog Z unit :=
  st_copy_new s p1 ;;; st_append s p2 ;;; st_copy_new r s ;;; st_destroy s.
(** r(a + b). *)
Definition st_plus (r a b : nat) : wprog Z unit :=
  st_copy_new 0 a ;;; st_copy_new 1 b ;;; st_plus_body r 2 0 1 ;;; st_destroy 1 ;;; st_destroy 0.
(** r(a + "..."): 146-148. *)
Definition st_plus_cr (r a : nat) (buf : list Z) : wprog Z unit :=
  st_copy_new 3 a ;;; st_copy_new 0 3 ;;; st_from_c 1 buf ;;;
  st_plus_body r 2 0 1 ;;; st_destroy 1 ;;; st_destroy 0 ;;; st_destroy 3.
(** r("..." + b): 152-154. *)
Definition st_plus_cl (r : nat) (buf : list Z) (b : nat) : wprog Z unit :=
  st_copy_new 3 b ;;; st_from_c 0 buf ;;; st_copy_new 1 3 ;;;
  st_plus_body r 2 0 1 ;;; st_destroy 1 ;;; st_destroy 0 ;;; st_destroy 3.

(** The loop of operator==: 161-165, [k] rounds left. *)
Fixpoint st_eq_loop (k i p1 p2 : nat) : wprog Z bool :=
  match k with
  | O => WRet true
  | S k => x <- wget p1 (Z.of_nat i) ;; y <- wget p2 (Z.of_nat i) ;;
           if (x =? y)%Z then st_eq_loop k (S i) p1 p2 else WRet false
  end.
(** operator== on its parameters: 158-167.  With both vectors of size 0 the loop
    bound is 2^64 - 1 and its first access asserts. *)
Definition st_eq_body (p1 p2 : nat) : wprog Z bool :=
  n <- wsize p1 ;; m <- wsize p2 ;;
  if negb (Nat.eqb n m) then WRet false
  else if Nat.eqb n 0 then WAbort else st_eq_loop (n - 1) 0 p1 p2.
Definition st_eq_at (t1 t2 a b : nat) : wprog Z bool :=
  st_copy_new t1 a ;;; st_copy_new t2 b ;;; r <- st_eq_body t1 t2 ;; st_destroy t2 ;;; st_destroy t1 ;;; WRet r.
Definition st_eq (a b : nat) : wprog Z bool := st_eq_at 0 1 a b.
(** 171-173, 177-179. *)
Definition st_eq_cr (a : nat) (buf : list Z) : wprog Z bool :=
  st_copy_new 2 a ;;; st_copy_new 0 2 ;;; st_from_c 1 buf ;;;
  r <- st_eq_body 0 1 ;; st_destroy 1 ;;; st_destroy 0 ;;; st_destroy 2 ;;; WRet r.
Definition st_eq_cl (buf : list Z) (b : nat) : wprog Z bool :=
  st_copy_new 2 b ;;; st_from_c 0 buf ;;; st_copy_new 1 2 ;;;
  r <- st_eq_body 0 1 ;; st_destroy 1 ;;; st_destroy 0 ;;; st_destroy 2 ;;; WRet r.
(** operator!=: 183-185, 189-191, 195-197. *)
Definition st_ne (a b : nat) : wprog Z bool :=
  st_copy_new 2 a ;;; st_copy_new 3 b ;;; r <- st_eq_at 0 1 2 3 ;; st_destroy 3 ;;; st_destroy 2 ;;; WRet (negb r).
Definition st_ne_cr (a : nat) (buf : list Z) : wprog Z bool :=
  st_copy_new 4 a ;;; st_copy_new 2 4 ;;; st_from_c 3 buf ;;;
  r <- st_eq_at 0 1 2 3 ;; st_destroy 3 ;;; st_destroy 2 ;;; st_destroy 4 ;;; WRet (negb r).
Definition st_ne_cl (buf : list Z) (b : nat) : wprog Z bool :=
  st_copy_new 4 b ;;; st_from_c 2 buf ;;; st_copy_new 3 4 ;;;
  r <- st_eq_at 0 1 2 3 ;; st_destroy 3 ;;; st_destroy 2 ;;; st_destroy 4 ;;; WRet (negb r).

(** Calls a client can make. *)
Inductive top :=
| TNew (id : nat) | TLit (id : nat) (buf : list Z)
| TCopyNew (id src : nat) | TMoveNew (id src : nat)
| TAssign (id src : nat) | TMoveAssign (id src : nat) | TAssignC (id : nat) (buf : list Z)
| TDestroy (id : nat)
| TPush (id : nat) (c : Z) | TSet (id : nat) (i : Z) (c : Z) | TClear (id : nat)
| TAppend (id src : nat) | TAppendC (id : nat) (buf : list Z)
| TPlus (id a b : nat) | TPlusCR (id a : nat) (buf : list Z) | TPlusCL (id : nat) (buf : list Z) (b : nat)
| TEq (a b : nat) | TEqCR (a : nat) (buf : list Z) | TEqCL (buf : list Z) (b : nat)
| TNe (a b : nat) | TNeCR (a : nat) (buf : list Z) | TNeCL (buf : list Z) (b : nat)
| TSize (id : nat) | TEmpty (id : nat) | TBack (id : nat) | TFront (id : nat) | TGet (id : nat) (i : Z)
| TIter (id : nat) | TCstr (id : nat).

(** Dispatch of one call (no code of its own in /repo). *)
Definition st_step (o : top) : wprog Z tout :=
  match o with
  | TNew id => st_init (sv id) ;;; WRet TUnit
  | TLit id buf => st_from_c (sv id) buf ;;; WRet TUnit
  | TCopyNew id src => st_copy_new (sv id) (sv src) ;;; WRet TUnit
  | TMoveNew id src => st_move_new (sv id) (sv src) ;;; WRet TUnit
  | TAssign id src => st_assign (sv id) (sv src) ;;; WRet TUnit
  | TMoveAssign id src => st_move (sv id) (sv src) ;;; WRet TUnit
  | TAssignC id buf => st_assign_c 0 (sv id) buf ;;; WRet TUnit
  | TDestroy id => st_destroy (sv id) ;;; WRet TUnit
  | TPush id c => st_push (sv id) c ;;; WRet TUnit
  | TSet id i c => st_set (sv id) i c ;;; WRet TUnit
  | TClear id => st_clear (sv id) ;;; WRet TUnit
  | TAppend id src => st_append (sv id) (sv src) ;;; WRet TUnit
  | TAppendC id buf => st_append_c 0 (sv id) buf ;;; WRet TUnit
  | TPlus id a b => st_plus (sv id) (sv a) (sv b) ;;; WRet TUnit
  | TPlusCR id a buf => st_plus_cr (sv id) (sv a) buf ;;; WRet TUnit
  | TPlusCL id buf b => st_plus_cl (sv id) buf (sv b) ;;; WRet TUnit
  | TEq a b => r <- st_eq (sv a) (sv b) ;; WRet (TBool r)
  | TEqCR a buf => r <- st_eq_cr (sv a) buf ;; WRet (TBool r)
  | TEqCL buf b => r <- st_eq_cl buf (sv b) ;; WRet (TBool r)
  | TNe a b => r <- st_ne (sv a) (sv b) ;; WRet (TBool r)
  | TNeCR a buf => r <- st_ne_cr (sv a) buf ;; WRet (TBool r)
  | TNeCL buf b => r <- st_ne_cl buf (sv b) ;; WRet (TBool r)
  | TSize id => n <- st_size (sv id) ;; WRet (TNum n)
  | TEmpty id => b <- st_empty (sv id) ;; WRet (TBool b)
  | TBack id => c <- st_back (sv id) ;; WRet (TChar c)
  | TFront id => c <- st_front (sv id) ;; WRet (TChar c)
  | TGet id i => c <- st_get (sv id) i ;; WRet (TChar c)
  | TIter id => l <- st_iter (sv id) ;; WRet (TChars l)
  | TCstr id => l <- st_cstr (sv id) ;; WRet (TChars l)
  end.
