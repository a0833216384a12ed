(** Model of StaticMemAllocator (memory/StaticMemAllocator.hpp) and of the
    static-memory port (port/static-memory/sma-dstruct-port.hpp). *)
From Verif Require Import Base.
Open Scope Z_scope.

(** Largest int. *)
Definition INT_MAX : Z := 2147483647.

(** SMA_MEM_ALIGN: 20; MEM_ALIGN_ROUND_UP: 79-81.  [None]: the sum
    (bytes + 8) - 1 overflows int. *)
Definition round_up (n : Z) : option Z :=
  if INT_MAX <? n + 8 then None else Some (Z.land (n + 8 - 1) (Z.lnot 7)).
(** SIZE_TO_INDEX_: 149-151. *)
Definition size_to_index (n : Z) : option Z := r ← round_up n; Some (Z.quot r 8 - 1).
(** INDEX_TO_SIZE_: 153-155 (int overflow not modelled: the classes it is used on
    are those of blocks inside the pool, or at most MAX_BLOCK_SIZE). *)
Definition index_to_size (i : Z) : Z := (i + 1) * 8.

(** An 8-byte word of the pool: a Link_e (pointer into the pool, as a byte offset
    from &mMemoryPool_d, [None] for nullptr), the int member of a MemBlock_e
    (50-53; simplified: it takes the whole word), or anything a user of the
    memory may have written. *)
Inductive word := WPtr (p : option Z) | WInt (n : Z) | WRaw (x : Z).
(** StaticMemAllocator's members: 140-142. *)
Record sma := SMA { m_free : Z; m_heads : list (option Z); m_mem : gmap Z word }.
(** Where a Link_e * can point to: an element of mFreeMemList_d or a block. *)
Inductive loc := Head (i : nat) | Blk (a : Z).

(** &mMemoryPool_d[a] for an object at address [obj]: the members are laid out in
    order, a char array needs no padding, and mFreeMemSize_d is a 4-byte int
    (140-141; the usual ABI of the platforms the code is written for). *)
Definition pool_address (obj a : Z) : Z := obj + 4 + a.

Section Model.
(** The template parameters MEMORY_SIZE and MAX_BLOCK_SIZE: 44. *)
Context (MEM MAX : Z).
Notation D := (M sma).

(** mFreeMemList_d.size(): 142. *)
Definition nlists : nat := Z.to_nat (Z.quot MAX 8 + 1).
(** Loop bound (not in the code): more words than the pool has. *)
Definition fuel0 : nat := S (Z.to_nat (MEM / 8)).

Definition lift {X} (o : option X) : D X := match o with Some x => ret x | None => ub end.
(** An int compared with an unsigned long. *)
Definition as_unsigned (z : Z) : Z := if z <? 0 then 2 ^ 64 + z else z.
(** mFreeMemList_d[index] (Array.hpp 76-88). *)
Definition head_index (z : Z) : D nat :=
  let j := if z <? 0 then Z.of_nat nlists + z else z in
  if (0 <=? j) && (j <? Z.of_nat nlists) then ret (Z.to_nat j) else ub.

(** ptr->next, read and written (EmbeddedList.hpp 15-16). *)
Definition next (st : sma) (l : loc) : option (option Z) :=
  match l with
  | Head i => m_heads st !! i
  | Blk a => match m_mem st !! a with Some (WPtr p) => Some p | _ => None end
  end.
Definition rd (l : loc) : D (option Z) := fun st => match next st l with Some p => Ok (p, st) | None => UB end.
Definition in_pool (a : Z) : bool := (0 <=? a) && (a + 8 <=? MEM) && (a mod 8 =? 0).
Definition wr_word (a : Z) (w : word) : D unit := fun st =>
  if in_pool a then Ok (tt, SMA (m_free st) (m_heads st) (<[a := w]> (m_mem st))) else UB.
Definition wr (l : loc) (p : option Z) : D unit :=
  match l with
  | Head i => fun st => if (i <? length (m_heads st))%nat then Ok (tt, SMA (m_free st) (<[i := p]> (m_heads st)) (m_mem st)) else UB
  | Blk a => wr_word a (WPtr p)
  end.
(** MemBlock_e::to_node(link)->data (50-55, EmbeddedList.hpp 68-70, 90-92). *)
Definition rd_data (a : Z) : D Z := fun st => match m_mem st !! (a + 8) with Some (WInt n) => Ok (n, st) | _ => UB end.
Definition wr_data (a n : Z) : D unit := wr_word (a + 8) (WInt n).
Definition add_free (d : Z) : D unit := fun st => Ok (tt, SMA (m_free st + d) (m_heads st) (m_mem st)).

(** The constructor: 58-63. *)
Definition sma_init : sma :=
  SMA MEM (replicate (nlists - 1) None ++ [Some 0]) (<[0 := WPtr None]> (<[8 := WInt MEM]> ∅)).

(** insert_mem_block_to_list_d: 320-343; its loop: 331-333; Link_e::add:
    EmbeddedList.hpp 27-30. *)
Fixpoint insert_walk (fuel : nat) (addr : Z) (l : loc) : D loc :=
  p <- rd l ;;
  match p with
  | None => ret l
  | Some b => if addr >? b then match fuel with O => diverge | S f => insert_walk f addr (Blk b) end else ret l
  end.
Definition link_add (prev : loc) (curr : Z) : D unit := p <- rd prev ;; wr (Blk curr) p ;;; wr prev (Some curr).
Definition insert_block (addr size : Z) : D unit :=
  if size <=? 0 then ret tt else
  i <- lift (size_to_index size) ;;
  let last := (nlists - 1)%nat in
  h <- (if as_unsigned i >=? Z.of_nat last then ret last else head_index i) ;;
  l <- insert_walk fuel0 addr (Head h) ;;
  link_add l addr ;;;
  if (h =? last)%nat then p <- rd l ;; match p with Some b => wr_data b size | None => ub end else ret tt.

(** quick_mem_allocate_d: 194-219; its loop: 201-204.  [None]: link.next is
    nullptr; otherwise link.next and data of the result. *)
Fixpoint quick_search (fuel : nat) (i : Z) : D Z :=
  if as_unsigned i <? Z.of_nat nlists - 1 then
    h <- head_index i ;; p <- rd (Head h) ;;
    match p with
    | None => match fuel with O => diverge | S f => quick_search f (i + 1) end
    | Some _ => ret i
    end
  else ret i.
Definition quick_alloc (bytes : Z) : D (option (Z * Z)) :=
  b <- lift (round_up bytes) ;; i0 <- lift (size_to_index b) ;;
  i <- quick_search nlists i0 ;;
  if as_unsigned i =? Z.of_nat nlists - 1 then ret None else
  h <- head_index i ;; p <- rd (Head h) ;;
  match p with
  | None => ub
  | Some a => nx <- rd (Blk a) ;; wr (Head h) nx ;;; ret (Some (a, index_to_size i))
  end.

(** mem_pool_allocate_d: 277-303; its loop: 285-290. *)
Fixpoint pool_search (fuel : nat) (bytes : Z) (l : loc) : D (option (loc * Z * Z)) :=
  p <- rd l ;;
  match p with
  | None => ret None
  | Some a => d <- rd_data a ;;
              if d >=? bytes then ret (Some (l, a, d))
              else match fuel with O => diverge | S f => pool_search f bytes (Blk a) end
  end.
Definition pool_alloc (bytes : Z) : D (option (Z * Z)) :=
  b <- lift (round_up bytes) ;; h <- head_index (-1) ;;
  r <- pool_search fuel0 b (Head h) ;;
  match r with
  | None => ret None
  | Some (l, a, d) => nx <- rd (Blk a) ;; wr l nx ;;; ret (Some (a, d))
  end.

(** allocate_d: 157-183 (allocate: 69-71). *)
Definition allocate (bytes : Z) : D (option Z) :=
  t <- (if bytes >? MAX then pool_alloc bytes
        else t <- quick_alloc bytes ;; match t with None => pool_alloc bytes | Some _ => ret t end) ;;
  match t with
  | None => ret None
  | Some (a, d) => s <- lift (round_up bytes) ;; insert_block (a + s) (d - s) ;;; add_free (- s) ;;; ret (Some a)
  end.
(** deallocate_d: 185-190 (deallocate: 73-75). *)
Definition deallocate (addr : option Z) (bytes : Z) : D bool :=
  if bytes <=? 0 then ret false else
  match addr with
  | None => ret false
  | Some a => s <- lift (round_up bytes) ;; insert_block a s ;;; add_free s ;;; ret true
  end.
(** free_mem_size: 83-85. *)
Definition free_mem_size : D Z := fun st => Ok (m_free st, st).
(** max_free_mblock_size: 87-108. *)
Fixpoint max_loop (fuel : nat) (l : loc) (mx : Z) : D Z :=
  p <- rd l ;;
  match p with
  | None => ret mx
  | Some a => d <- rd_data a ;; let mx := if mx <? d then d else mx in
              match fuel with O => diverge | S f => max_loop f (Blk a) mx end
  end.
Fixpoint down_search (i : nat) : D Z :=
  match i with
  | O => ret (-1)
  | S i => p <- rd (Head i) ;; match p with None => down_search i | Some _ => ret (Z.of_nat i) end
  end.
Definition max_free_mblock_size : D Z :=
  mx <- max_loop fuel0 (Head (nlists - 1)) 0 ;;
  if mx >? 0 then ret mx else i <- down_search (nlists - 1) ;; ret (index_to_size i).

(** quick_mem_memory_merge_d: 221-273.  The loop over list[j] (238-263) for the
    block [f] of list[i] whose predecessor is [fl]; [sl]: secondMemLinkPtr. *)
Fixpoint merge_scan (fuel : nat) (i j : nat) (fl : loc) (f : Z) (sl : loc) : D bool :=
  p <- rd sl ;;
  match p with
  | None => ret false
  | Some s =>
      if (f - (Z.of_nat j + 1) * 8 =? s) || (f + (Z.of_nat i + 1) * 8 =? s) then
        nf <- rd (Blk f) ;; wr fl nf ;;; ns <- rd (Blk s) ;; wr sl ns ;;;
        insert_block (if f <? s then f else s) (index_to_size (Z.of_nat i + Z.of_nat j + 1)) ;;; ret true
      else if f >? s then ret false
      else match fuel with O => diverge | S fu => merge_scan fu i j fl f (Blk s) end
  end.
(** The loop over j: 235-264; [c] lists from [j] on. *)
Fixpoint merge_lists (c : nat) (i j : nat) (fl : loc) (f : Z) : D bool :=
  match c with
  | O => ret false
  | S c => b <- merge_scan fuel0 i j fl f (Head j) ;; if b then ret true else merge_lists c i (S j) fl f
  end.
(** The loop over list[i]: 226-271; [fl]: firstMemLinkPtr. *)
Fixpoint merge_first (fuel : nat) (i : nat) (fl : loc) : D unit :=
  p <- rd fl ;;
  match p with
  | None => ret tt
  | Some f =>
      match fuel with
      | O => diverge
      | S fu =>
          sp <- rd (Blk f) ;;
          if (match sp with Some s => f + (Z.of_nat i + 1) * 8 =? s | None => false end) then
            match sp with
            | None => ub
            | Some s => ns <- rd (Blk s) ;; wr fl ns ;;; insert_block f (index_to_size (Z.of_nat i * 2 + 1)) ;;; merge_first fu i fl
            end
          else b <- merge_lists (nlists - 1 - (i + 1)) i (i + 1) fl f ;;
               merge_first fu i (if b : bool then fl else Blk f)
      end
  end.
Definition quick_merge : D unit := for_range 0 (nlists - 1) (fun i => merge_first fuel0 i (Head i)).
(** mem_pool_memory_merge_d: 305-317. *)
Fixpoint pool_merge_loop (fuel : nat) (mb : option Z) : D unit :=
  match mb with
  | None => ret tt
  | Some a =>
      match fuel with
      | O => diverge
      | S fu =>
          nx <- rd (Blk a) ;; d <- rd_data a ;;
          match nx with
          | Some b => if a + d =? b then
                        db <- rd_data b ;; wr_data a (d + db) ;;; nb <- rd (Blk b) ;; wr (Blk a) nb ;;; pool_merge_loop fu (Some a)
                      else pool_merge_loop fu nx
          | None => pool_merge_loop fu nx
          end
      end
  end.
Definition pool_merge : D unit := p <- rd (Head (nlists - 1)) ;; pool_merge_loop (2 * fuel0) p.
(** memory_merge_d: 345-348 (memory_merge: 110-112). *)
Definition memory_merge : D unit := quick_merge ;;; pool_merge.

(** dump: 114-137 (without the printing). *)
Fixpoint dump_list (fuel : nat) (i : nat) (l : loc) (sum : Z) : D Z :=
  p <- rd l ;;
  match p with
  | None => ret sum
  | Some a => d <- (if (i =? nlists - 1)%nat then rd_data a else ret (index_to_size (Z.of_nat i))) ;;
              match fuel with O => diverge | S f => dump_list f i (Blk a) (sum + d) end
  end.
Fixpoint dump_lists (c : nat) (i : nat) (sum : Z) : D Z :=
  match c with O => ret sum | S c => sum <- dump_list fuel0 i (Head i) sum ;; dump_lists c (S i) sum end.
Definition dump : D unit := s <- dump_lists nlists 0 0 ;; fr <- free_mem_size ;; dassert (fr =? s).

(** port::allocate: sma-dstruct-port.hpp 30-49; port::deallocate: 51-61. *)
Definition port_allocate (bytes : Z) : D (option Z) :=
  p <- allocate bytes ;;
  match p with
  | Some _ => ret p
  | None => memory_merge ;;; p <- allocate bytes ;; match p with None => abort | Some _ => ret p end
  end.
Definition port_deallocate (addr : option Z) (bytes : Z) : D unit := b <- deallocate addr bytes ;; dassert b.

(** The user of a block writes one word of it. *)
Definition user_write (a x : Z) : D unit := wr_word a (WRaw x).
End Model.
