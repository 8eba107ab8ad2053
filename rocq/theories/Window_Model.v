(** Model of syncanysql/calculaters/window_calculater.py.
    The driver (operator #partition of the external package syncany) is taken to be: the rows of one
    partition are sorted by the window's ORDER BY; the state starts as None and is threaded through the
    rows by ::order_aggregate with the context (current_index, order_value, datas); the value of a row is
    ::final_value of the state after that row, or the state itself when there is no ::final_value. *)
From Coq Require Import SpecFloat.
From Verif Require Import Base PyVal Utils_Model Calc_Model Agg_Model.
Open Scope Z_scope.

(** The argument of the window function at a row: a single value, or the list of the argument values. *)
Inductive wdata := One (v : val) | Many (l : list val).
(** A row of a sorted partition: its order value and its argument. *)
Definition wrow := (val * wdata)%type.

(** partition_calculater.value of a row, and value[0] when it is a list. *)
Definition wval (r : wrow) : res wdata := Ok (snd r).
Definition wfirst (r : wrow) : res val :=
  match snd r with Many (v :: _) => Ok v | Many [] => Err IndexError | One _ => Err TypeError end.
Definition wone (r : wrow) : res val := match snd r with One v => Ok v | Many _ => Err TypeError end.

(** int(x) as an integer *)
Definition wint (x : val) : res Z := do v <- py_int x; match v with VInt z => Ok z | _ => Err TypeError end.

(** window_calculater.py:50-51 ROW_NUMBER. *)
Definition row_number (datas : list wrow) (i : nat) : res val := Ok (VInt (Z.of_nat i + 1)).

(** window_calculater.py:56-70 RANK: the state is (order_value, rank, row_number); the stored order_value is
    never updated. *)
Definition rank_step (st : option (val * Z * Z)) (ov : val) : option (val * Z * Z) :=
  match st with
  | None => Some (ov, 1, 1)
  | Some (o, r, n) => Some (o, if pyeq ov o then r else r + 1, n + 1)
  end.
Definition rank_final (st : option (val * Z * Z)) : Z := match st with None => 1 | Some (_, r, _) => r end.
(** window_calculater.py:75-88 DENSE_RANK. *)
Definition dense_step (st : option (val * Z)) (ov : val) : option (val * Z) :=
  match st with
  | None => Some (ov, 1)
  | Some (o, r) => Some (o, if pyeq ov o then r else r + 1)
  end.
Definition dense_final (st : option (val * Z)) : Z := match st with None => 1 | Some (_, r) => r end.
(** window_calculater.py:93-109 PERCENT_RANK: the same steps as RANK; note the precedence of / in line 109. *)
Definition percent_final (st : option (val * Z * Z)) : res val :=
  match st with
  | None => Ok (VInt 1)
  | Some (_, r, n) => if n <=? 1 then Ok (VInt 0)
                      else do q <- py_div (VInt 1) (VInt n); do x <- py_sub (VInt r) q; py_sub x (VInt 1)
  end.
(** Values of all rows of a partition for a state function. *)
Fixpoint scan {S A} (step : S -> A -> S) (st : S) (l : list A) : list S :=
  match l with
  | [] => []
  | a :: r => let s := step st a in s :: scan step s r
  end.
Definition ranks (orders : list val) : list Z := map rank_final (scan rank_step None orders).
Definition dense_ranks (orders : list val) : list Z := map dense_final (scan dense_step None orders).
Definition percent_ranks (orders : list val) : list (res val) := map percent_final (scan rank_step None orders).

(** window_calculater.py:116-121 FIRST_VALUE, 125-130 LAST_VALUE (the row's own column is always found). *)
Definition first_value (datas : list wrow) (i : nat) : res wdata :=
  match nth_error datas 0 with Some r => wval r | None => Err IndexError end.
Definition last_value (datas : list wrow) (i : nat) : res wdata :=
  match pyindex datas (-1) with Some r => wval r | None => Err IndexError end.

Definition arg (n : nat) (l : list val) (d : val) : val := nth n l d.
(** window_calculater.py:134-151 NTH_VALUE with the argument d of the current row. *)
Definition nth_value (datas : list wrow) (d : wdata) : res val :=
  match d with
  | Many l =>
    do off <- (match nth_error l 1 with Some x => wint x | None => Ok 1 end);
    let off := if off >? 0 then off - 1 else off in
    if (off <? 0) && (- off >? Z.of_nat (length datas)) || (off >=? Z.of_nat (length datas))
    then Ok (arg 2 l VNone)
    else match pyindex datas off with Some r => wfirst r | None => Err IndexError end
  | One _ => match nth_error datas 0 with Some r => wone r | None => Err IndexError end
  end.
(** window_calculater.py:155-162 NTILE. *)
Definition ntile (datas : list wrow) (i : nat) (d : wdata) : res val :=
  do n <- (match d with Many l => match l with [] => Ok 1 | x :: _ => wint x end | One v => wint v end);
  if n <=? 0 then Ok VNone
  else do q <- py_div (VInt (Z.of_nat (length datas))) (VInt n);
       do x <- py_div (VInt (Z.of_nat i)) q;
       do z <- py_int x; py_add z (VInt 1).
(** window_calculater.py:166-185 LAG ([sgn] = -1), 189-208 LEAD ([sgn] = 1). *)
Definition lag_lead (sgn : Z) (datas : list wrow) (i : nat) (d : wdata) : res val :=
  match d with
  | Many l =>
    do off <- (match nth_error l 1 with Some x => wint x | None => Ok 1 end);
    let j := Z.of_nat i + sgn * off in
    if (j <? 0) || (j >=? Z.of_nat (length datas)) then Ok (arg 2 l VNone)
    else match pyindex datas j with Some r => wfirst r | None => Err IndexError end
  | One _ =>
    let j := Z.of_nat i + sgn in
    if (j <? 0) || (j >=? Z.of_nat (length datas)) then Ok VNone
    else match pyindex datas j with Some r => wone r | None => Err IndexError end
  end.
Definition lag := lag_lead (-1).
Definition lead := lag_lead 1.
(** window_calculater.py:212-215 CUME_DIST: note the precedence of / in line 215. *)
Definition cume_dist (datas : list wrow) (i : nat) : res val :=
  match datas with
  | [] => Ok (VInt 0)
  | _ => do q <- py_div (VInt 1) (VInt (Z.of_nat (length datas)));
         do x <- py_add (VInt (Z.of_nat i)) q; py_add x (VInt 1)
  end.
