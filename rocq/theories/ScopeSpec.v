(** What the scope properties talk about, independently of the model's helpers. *)
From Verif Require Export ScopeModel.
Open Scope list_scope.

(** Two stores with the same symbols and columns whose arrays agree on the first
    [t] bars. Nothing is said of later bars, not even how many there are. *)
Definition agree_until {A} (t : nat) (s1 s2 : store A) : Prop :=
  forall symbol,
    match lookup symbol s1, lookup symbol s2 with
    | None, None => True
    | Some c1, Some c2 =>
        forall name,
          match lookup name c1, lookup name c2 with
          | None, None => True
          | Some a1, Some a2 => firstn t a1 = firstn t a2
          | _, _ => False
          end
    | _, _ => False
    end.

(** An indicator read: symbol, name and end index. *)
Definition ind_call := (nat * str * option Z)%type.
(** The cache after a history of indicator reads. *)
Fixpoint ind_history {A} (s : ind_scope A) (calls : list ind_call) (c : ind_cache A) : ind_cache A :=
  match calls with
  | [] => c
  | (symbol, name, e) :: r => ind_history s r (snd (ind_fetch s c symbol name e))
  end.

(** What can be done to the buffer of predictions: append a value (fresh memory
    holding anything at all), or take a view of the first [n]. *)
Inductive pb_op (A : Type) := Append (junk : nat -> A) (v : A) | Values (n : Z).
Arguments Append {A} junk v.
Arguments Values {A} n.
Definition pb_step {A} (s : per_bar A) (o : pb_op A) : per_bar A :=
  match o with Append junk v => pb_append junk v s | Values _ => s end.
Definition pb_run {A} (ops : list (pb_op A)) (s : per_bar A) : per_bar A := fold_left pb_step ops s.
Definition appended {A} (ops : list (pb_op A)) : list A :=
  flat_map (fun o => match o with Append _ v => [v] | Values _ => [] end) ops.

(** A history of reads of a per-bar model's predictions, each with an end index
    and whatever fresh memory holds. *)
Fixpoint pred_history {R A} (p : predictor R A) (input : list R) (calls : list (option Z * (nat -> A)))
    (s : per_bar A) : per_bar A :=
  match calls with
  | [] => s
  | (e, junk) :: r => pred_history p input r (snd (fetch_per_bar p input junk s e))
  end.

(** A history of price reads on one bar. *)
Fixpoint price_history (registered : list nat) (s : price_scope) (calls : list (nat * price_arg)) (c : price_cache)
  : price_cache :=
  match calls with
  | [] => c
  | (symbol, p) :: r => price_history registered s r (snd (fetch_float registered s symbol p c))
  end.

(** [x] is a whole number of cents. *)
Definition in_cents (x : Q) : Prop := exists n : Z, (x == inject_Z n / 100)%Q.

(** The current bar of a symbol: its four prices at this bar's index. *)
Definition bar_is (s : price_scope) (symbol : nat) (o h l c : Q) : Prop :=
  exists e cols os hs ls cs,
    lookup symbol (ps_end_index s) = Some (Z.of_nat (S e)) /\ lookup symbol (ps_store s) = Some cols /\
    lookup col_open cols = Some os /\ nth_error os e = Some (Some o) /\
    lookup col_high cols = Some hs /\ nth_error hs e = Some (Some h) /\
    lookup col_low cols = Some ls /\ nth_error ls e = Some (Some l) /\
    lookup col_close cols = Some cs /\ nth_error cs e = Some (Some c).
(** What each price type means. *)
Definition price_of (o h l c : Q) (t : PortfolioModel.price_type) : Q :=
  match t with
  | PortfolioModel.PTOpen => o | PortfolioModel.PTHigh => h | PortfolioModel.PTLow => l | PortfolioModel.PTClose => c
  | PortfolioModel.PTMiddle => (l + h) / 2
  | PortfolioModel.PTAverage => (o + h + l + c) / 4
  end%Q.
