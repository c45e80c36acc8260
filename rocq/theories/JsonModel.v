(** The tile file: text written by [TileSet.to_json] and read back by
    [TileSet.from_json] (/repo/src/spurt/utils/_tiling.py:89-113).

    The Python [json] module is modelled on the values that occur in that file:
    integers, arrays and objects. Simplifications:
    - strings only occur as object keys, without escapes; floats, [true],
      [false], [null] and string values are not parsed (reported as
      ValueError, the base class of JSONDecodeError);
    - the reader accepts leading zeros, which Python rejects. *)
From Coq Require Export String Ascii.
From Coq Require Import DecimalString.
From Verif Require Import Base TileModel.
Local Open Scope string_scope.

Inductive json :=
  | JInt (z : Z)
  | JArr (l : list json)
  | JObj (l : list (string * json)).

Definition newline : string := String (ascii_of_nat 10) "".

(** [str(z)] *)
Definition str_Z (z : Z) : string := NilEmpty.string_of_int (Z.to_int z).

(** Line break and 4 spaces per level, then [k]. *)
Fixpoint spaces (n : nat) (k : string) : string :=
  match n with O => k | S n => String " " (spaces n k) end.
Definition nl (lvl : nat) (k : string) : string := newline ++ spaces (4 * lvl) k.

(** [json.dumps(v, indent=4)] at nesting depth [lvl], followed by [k]. *)
Fixpoint pp (lvl : nat) (v : json) (k : string) {struct v} : string :=
  match v with
  | JInt z => str_Z z ++ k
  | JArr [] => "[]" ++ k
  | JArr (x :: xs) =>
      "[" ++ nl (S lvl) (pp (S lvl) x
        ((fix more (l : list json) : string :=
            match l with
            | [] => nl lvl ("]" ++ k)
            | y :: t => "," ++ nl (S lvl) (pp (S lvl) y (more t))
            end) xs))
  | JObj [] => "{}" ++ k
  | JObj ((key, x) :: xs) =>
      "{" ++ nl (S lvl) ("""" ++ key ++ """: " ++ pp (S lvl) x
        ((fix more (l : list (string * json)) : string :=
            match l with
            | [] => nl lvl ("}" ++ k)
            | (key', y) :: t =>
                "," ++ nl (S lvl) ("""" ++ key' ++ """: " ++ pp (S lvl) y (more t))
            end) xs))
  end.
Definition dumps (v : json) : string := pp 0 v "".

(** Reader. *)
Definition is_ws (a : ascii) : bool :=
  let n := nat_of_ascii a in
  Nat.eqb n 32 || Nat.eqb n 10 || Nat.eqb n 9 || Nat.eqb n 13.
Fixpoint skip (s : string) : string :=
  match s with
  | String a t => if is_ws a then skip t else s
  | "" => ""
  end.
Definition is_num (a : ascii) : bool :=
  let n := nat_of_ascii a in (Nat.leb 48 n && Nat.leb n 57) || Nat.eqb n 45.
Fixpoint span_num (s : string) : string * string :=
  match s with
  | String a t => if is_num a then let '(u, r) := span_num t in (String a u, r) else ("", s)
  | "" => ("", "")
  end.
(** Characters up to the closing quote. *)
Fixpoint span_key (s : string) : option (string * string) :=
  match s with
  | "" => None
  | String a t =>
      if Ascii.eqb a """" then Some ("", t)
      else match span_key t with Some (u, r) => Some (String a u, r) | None => None end
  end.

Fixpoint parse (fuel : nat) (s : string) : option (json * string) :=
  match fuel with
  | O => None
  | S f =>
    match skip s with
    | String "["%char r =>
        match skip r with
        | String "]"%char r' => Some (JArr [], r')
        | _ => match parse_arr f r with Some (l, r') => Some (JArr l, r') | None => None end
        end
    | String "{"%char r =>
        match skip r with
        | String "}"%char r' => Some (JObj [], r')
        | _ => match parse_obj f r with Some (l, r') => Some (JObj l, r') | None => None end
        end
    | t => let '(u, r) := span_num t in
           match NilZero.int_of_string u with
           | Some d => Some (JInt (Z.of_int d), r)
           | None => None
           end
    end
  end
with parse_arr (fuel : nat) (s : string) : option (list json * string) :=
  match fuel with
  | O => None
  | S f =>
    match parse f s with
    | None => None
    | Some (v, r) =>
      match skip r with
      | String ","%char r' =>
          match parse_arr f r' with Some (l, r2) => Some (v :: l, r2) | None => None end
      | String "]"%char r' => Some ([v], r')
      | _ => None
      end
    end
  end
with parse_obj (fuel : nat) (s : string) : option (list (string * json) * string) :=
  match fuel with
  | O => None
  | S f =>
    match skip s with
    | String """"%char r0 =>
      match span_key r0 with
      | None => None
      | Some (key, r1) =>
        match skip r1 with
        | String ":"%char r2 =>
          match parse f r2 with
          | None => None
          | Some (v, r) =>
            match skip r with
            | String ","%char r' =>
                match parse_obj f r' with
                | Some (l, r3) => Some ((key, v) :: l, r3) | None => None end
            | String "}"%char r' => Some ([(key, v)], r')
            | _ => None
            end
          end
        | _ => None
        end
      end
    | _ => None
    end
  end.

(** [json.load]: the whole text must be one value. *)
Definition loads (s : string) : res json :=
  match parse (S (String.length s)) s with
  | Some (v, r) => match skip r with "" => Ok v | _ => Err ValueError end
  | None => Err ValueError
  end.

(** [d[key]] on a loaded object: the last binding of a repeated key wins. *)
Definition get_key (key : string) (v : json) : res json :=
  match v with
  | JObj l => match find (fun kv => String.eqb (fst kv) key) (rev l) with
              | Some (_, x) => Ok x
              | None => Err KeyError
              end
  | _ => Err TypeError
  end.
Fixpoint ints_of (l : list json) : res (list Z) :=
  match l with
  | [] => Ok []
  | JInt z :: t => do r <- ints_of t; Ok (z :: r)
  | _ :: _ => Err TypeError   (* Python keeps such entries; not modelled *)
  end.
Definition int_list (v : json) : res (list Z) :=
  match v with JArr l => ints_of l | _ => Err TypeError end.

(** _tiling.py:102-113 *)
Definition json_of_tileset (t : tileset) : json :=
  JObj [("shape", JArr [JInt (fst (shape t)); JInt (snd (shape t))]);
        ("tiles", JArr (map (fun tt => JObj [("bounds", JArr (map JInt (tolist tt)))]) (tiles t)))].
Definition to_json (t : tileset) : string := dumps (json_of_tileset t).

(** _tiling.py:89-100. Python keeps whatever "shape" holds; the model asks for
    a pair of integers. *)
Definition tile_of_json (v : json) : res bbox :=
  do b <- get_key "bounds" v;
  do l <- int_list b;
  from_shapely_bounds l.
Definition from_json (s : string) : res tileset :=
  do jdict <- loads s;
  do sh <- get_key "shape" jdict;
  do shl <- int_list sh;
  do ts <- get_key "tiles" jdict;
  do tl <- (match ts with JArr l => map_res tile_of_json l | _ => Err TypeError end);
  match shl with
  | [a; b] => Ok (TileSet (a, b) tl)
  | _ => Err TypeError
  end.
