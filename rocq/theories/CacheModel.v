(** Model of src/pybroker/cache.py 35-153: [_L1Cache], a disk cache fronted by an
    in-memory LRU. Each method is a program of atomic actions: a block under the
    in-memory lock, or one call of the disk cache (a transaction of diskcache,
    which is not modelled further). The same programs are run one at a time or
    interleaved.

    Simplifications: the disk cache neither expires nor culls entries; a disk read
    does not raise; a disk write may raise or return [False], as [fate] says. *)
From Coq Require Import List Bool Arith.
Import ListNotations.

(** A key: a string, or a frozen dataclass (156-289). *)
Inductive key := Plain (n : nat) | Data (n : nat).
Definition key_eqb (a b : key) : bool :=
  match a, b with Plain x, Plain y | Data x, Data y => Nat.eqb x y | _, _ => false end.
(** A Python object: [None], a value that can be stored, or any other object
    passed as a default. *)
Inductive val := VNone | VObj (n : nat) | VOther (n : nat).
(** [stored is default], for a stored value: only [None] is the same object when
    it is read back. *)
Definition is_default (stored default : val) : bool :=
  match stored, default with VNone, VNone => true | _, _ => false end.

(** What becomes of a disk write: it succeeds, is refused, or raises, having
    taken effect or not on each key. *)
Inductive fate := FOk | FFalse | FRaise (happened : key -> bool).

Section Cache.
(** [repr] of a dataclass key; 26-32: [_legacy_key]. *)
Context (repr : nat -> nat).
Definition legacy (k : key) : option key := match k with Data d => Some (Plain (repr d)) | Plain _ => None end.

(** The in-memory level, oldest first. *)
Definition l1_t := list (key * val).
Definition disk_t := key -> option val.
Record shared := mk_shared { s_l1 : l1_t; s_disk : disk_t }.
Fixpoint l1_find (k : key) (l : l1_t) : option val :=
  match l with [] => None | (k', v) :: r => if key_eqb k k' then Some v else l1_find k r end.
Definition l1_pop (k : key) (l : l1_t) : l1_t := filter (fun x => negb (key_eqb k (fst x))) l.
(** 61-66: [_l1_put]: the key becomes the most recent, then the oldest entries go
    while there are too many. *)
Definition l1_put (maxsize : nat) (k : key) (v : val) (l : l1_t) : l1_t :=
  let l := l1_pop k l ++ [(k, v)] in skipn (length l - maxsize) l.
(** 68-73: [_l1_evict]. *)
Definition l1_evict (k : key) (l : l1_t) : l1_t :=
  let l := l1_pop k l in match legacy k with Some k' => l1_pop k' l | None => l end.
(** 75-82: [_l1_get]. *)
Definition l1_get (k : key) (l : l1_t) : option val * l1_t :=
  match l1_find k l with None => (None, l) | Some v => (Some v, l1_pop k l ++ [(k, v)]) end.
Definition set_key (d : disk_t) (k : key) (v : option val) : disk_t := fun k' => if key_eqb k k' then v else d k'.

(** The atomic actions, and what they answer. *)
Inductive action :=
  | L1Get (k : key) | L1Put (k : key) (v : val) | L1Evict (k : key) | L1Pop (k : key) | L1Clear
  | DGet (k : key) | DSet (k : key) (v : val) | DDelete (k : key) | DClear.
(** [ADone b]: the returned flag (for a deletion: whether the key was there). *)
Inductive answer := AVal (v : option val) | ADone (b : bool) | ARaised.
(** [DDelete] answers with the value the key had: enough for [delete], [pop] and
    [__delitem__] of the disk cache. *)
Definition act (maxsize : nat) (a : action) (f : fate) (s : shared) : shared * answer :=
  let '(mk_shared l d) := s in
  match a with
  | L1Get k => let '(v, l) := l1_get k l in (mk_shared l d, AVal v)
  | L1Put k v => (mk_shared (l1_put maxsize k v l) d, ADone true)
  | L1Evict k => (mk_shared (l1_evict k l) d, ADone true)
  | L1Pop k => (mk_shared (l1_pop k l) d, ADone true)
  | L1Clear => (mk_shared [] d, ADone true)
  | DGet k => (s, AVal (d k))
  | DSet k v =>
      match f with
      | FOk => (mk_shared l (set_key d k (Some v)), ADone true)
      | FFalse => (s, ADone false)
      | FRaise h => (mk_shared l (if h k then set_key d k (Some v) else d), ARaised)
      end
  | DDelete k =>
      match f with
      | FRaise h => (mk_shared l (if h k then set_key d k None else d), ARaised)
      | _ => (mk_shared l (set_key d k None), AVal (d k))
      end
  | DClear =>
      match f with
      | FRaise h => (mk_shared l (fun k => if h k then None else d k), ARaised)
      | _ => (mk_shared l (fun _ => None), ADone true)
      end
  end.

(** What a method returns. *)
Inductive res := RVal (v : val) | RFlag (b : bool) | RDone | RKeyError | RRaised.
Inductive prog := Ret (r : res) | Do (a : action) (k : answer -> prog).
Definition unexpected : prog := Ret RRaised.

(** 84-102: [get]. *)
Definition finish_get (key : key) (v default : val) (is_def : bool) : prog :=
  if is_def then Ret (RVal default)
  else match v with VNone => Ret (RVal v) | _ => Do (L1Put key v) (fun _ => Ret (RVal v)) end.
Definition get_prog (key : key) (default : val) : prog :=
  Do (L1Get key) (fun a => match a with
  | AVal (Some v) => Ret (RVal v)
  | _ => Do (DGet key) (fun a => match a with
    | AVal v =>
        if match v with None => true | Some v => is_default v default end then
          match legacy key with
          | None => finish_get key default default true
          | Some legacy =>
              Do (L1Get legacy) (fun a => match a with
              | AVal (Some v) => Do (L1Put key v) (fun _ => Ret (RVal v))
              | _ => Do (DGet legacy) (fun a => match a with
                | AVal None => finish_get key default default true
                | AVal (Some v) => finish_get key v default (is_default v default)
                | _ => unexpected end) end)
          end
        else match v with Some v => finish_get key v default false | None => unexpected end
    | _ => unexpected end) end).
(** 104-118: [set]. *)
Definition set_prog (key : key) (v : val) : prog :=
  Do (DSet key v) (fun a => match a with
  | ARaised => Do (L1Evict key) (fun _ => Ret RRaised)
  | ADone true => Do (L1Put key v) (fun _ => Ret (RFlag true))
  | ADone false => Do (L1Evict key) (fun _ => Ret (RFlag false))
  | AVal _ => unexpected end).
(** 120-126: [delete]. *)
Definition delete_prog (key : key) : prog :=
  Do (L1Evict key) (fun _ => Do (DDelete key) (fun a => match a with
  | AVal v =>
      let result := RFlag (match v with Some _ => true | None => false end) in
      match legacy key with
      | None => Ret result
      | Some legacy => Do (DDelete legacy) (fun a => match a with ARaised => Ret RRaised | _ => Ret result end)
      end
  | _ => Ret RRaised end)).
(** 128-142: [pop]. *)
Definition pop_prog (key : key) (default : val) : prog :=
  Do (L1Evict key) (fun _ => Do (DDelete key) (fun a => match a with
  | AVal v =>
      let result := RVal (match v with Some v => v | None => default end) in
      match legacy key with
      | None => Ret result
      | Some legacy => Do (L1Pop legacy) (fun _ =>
          Do (DDelete legacy) (fun a => match a with ARaised => Ret RRaised | _ => Ret result end))
      end
  | _ => Ret RRaised end)).
(** 144-148: [__delitem__]. *)
Definition delitem_prog (key : key) : prog :=
  Do (L1Evict key) (fun _ => Do (DDelete key) (fun a => match a with
  | AVal None => Ret RKeyError
  | AVal (Some _) =>
      match legacy key with
      | None => Ret RDone
      | Some legacy => Do (DDelete legacy) (fun a => match a with ARaised => Ret RRaised | _ => Ret RDone end)
      end
  | _ => Ret RRaised end)).
(** 150-153: [clear]. *)
Definition clear_prog : prog :=
  Do L1Clear (fun _ => Do DClear (fun a => match a with ARaised => Ret RRaised | _ => Ret RDone end)).

Inductive op := OGet (k : key) (default : val) | OSet (k : key) (v : val) | ODelete (k : key)
  | OPop (k : key) (default : val) | ODelItem (k : key) | OClear.
Definition prog_of (o : op) : prog :=
  match o with
  | OGet k d => get_prog k d | OSet k v => set_prog k v | ODelete k => delete_prog k
  | OPop k d => pop_prog k d | ODelItem k => delitem_prog k | OClear => clear_prog
  end.

(** ** One operation at a time *)
Fixpoint run_prog (maxsize : nat) (p : prog) (fates : list fate) (s : shared) : shared * res :=
  match p with
  | Ret r => (s, r)
  | Do a k =>
      let f := match a with DSet _ _ | DDelete _ | DClear => hd FOk fates | _ => FOk end in
      let fates := match a with DSet _ _ | DDelete _ | DClear => tl fates | _ => fates end in
      let '(s, x) := act maxsize a f s in run_prog maxsize (k x) fates s
  end.
(** A history of operations, each with what becomes of its disk writes. *)
Fixpoint run_history (maxsize : nat) (h : list (op * list fate)) (s : shared) : shared * list res :=
  match h with
  | [] => (s, [])
  | (o, fates) :: h => let '(s, r) := run_prog maxsize (prog_of o) fates s in
                       let '(s, rs) := run_history maxsize h s in (s, r :: rs)
  end.

(** ** Threads *)
(** A thread is idle or inside an operation. *)
Record cstate := mk_cstate { c_shared : shared; c_threads : nat -> option (op * prog) }.
(** The scheduler starts an operation on an idle thread, or lets a thread do its
    next action. *)
Inductive label := Start (t : nat) (o : op) | Step (t : nat) (f : fate).
Inductive event := Done (t : nat) (o : op) (r : res).
Definition set_thread (m : nat -> option (op * prog)) (t : nat) (x : option (op * prog)) : nat -> option (op * prog) :=
  fun t' => if Nat.eqb t t' then x else m t'.
Definition cstep (maxsize : nat) (l : label) (s : cstate) : option (cstate * list event) :=
  match l with
  | Start t o =>
      match c_threads s t with
      | Some _ => None
      | None => Some (mk_cstate (c_shared s) (set_thread (c_threads s) t (Some (o, prog_of o))), [])
      end
  | Step t f =>
      match c_threads s t with
      | Some (o, Do a k) =>
          let '(sh, x) := act maxsize a f (c_shared s) in
          match k x with
          | Ret r => Some (mk_cstate sh (set_thread (c_threads s) t None), [Done t o r])
          | p => Some (mk_cstate sh (set_thread (c_threads s) t (Some (o, p))), [])
          end
      | _ => None
      end
  end.
Fixpoint crun (maxsize : nat) (ls : list label) (s : cstate) : option (cstate * list event) :=
  match ls with
  | [] => Some (s, [])
  | l :: ls =>
      match cstep maxsize l s with
      | None => None
      | Some (s, e) => match crun maxsize ls s with None => None | Some (s, es) => Some (s, e ++ es) end
      end
  end.
Definition idle (sh : shared) : cstate := mk_cstate sh (fun _ => None).
End Cache.
