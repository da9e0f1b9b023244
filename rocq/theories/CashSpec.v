(** Vocabulary of the bound of C09: what can take an account without leverage below
    zero. *)
From Verif Require Export PortfolioSpec.
(** What closing an entry costs beyond the money that was set aside for it: the cost
    of the shares for a long, as much again for a short. *)
Definition beyond_stake (t : trade) : Q :=
  match t_type t with
  | Long => Qmax 0 (- (t_shares t * t_exit t))
  | Short => Qmax 0 (t_shares t * (t_exit t - 2 * t_entry t))
  end.
(** The fees of all orders and the excess of all trades. *)
Definition overdraft (p : port) : Q :=
  Qsum (map (fun o => Qmax 0 (o_fees o)) (p_orders p)) + Qsum (map beyond_stake (p_trades p)).
