(** Model of the mesh-file clean-up, src/driver/driver.cpp 1055-1183.

    A file is its bytes (a [string]).  Lines are split as std::getline does and
    tokens as [istream >> string] does in the C locale.  to_string and stoi are
    decimal conversions; int is 32 bits. *)
From Coq Require Import ZArith List Bool String Ascii Decimal DecimalString.
From Verif Require Import Common.
Import ListNotations.
Local Open Scope Z_scope.

(** ** Characters, lines, tokens. driver.cpp 1105-1173. *)
Definition newline : ascii := "010"%char.
(** driver.cpp 1105-1173. *)
Definition nl : string := String newline EmptyString.
(** isspace in the C locale: space and the codes 9 to 13.
    Used in [tokensFrom], driver.cpp 1141-1144. *)
Definition isspace (c : ascii) : bool :=
  let n := nat_of_ascii c in (n =? 32)%nat || ((9 <=? n) && (n <=? 13))%nat.

(** The lines std::getline returns until it fails: pieces ended by a newline, and
    a last unfinished piece if it is not empty (loop of fixGmshMesh, driver.cpp 1105). *)
Fixpoint linesFrom (acc : string) (s : string) : list string :=
  match s with
  | EmptyString => match acc with EmptyString => [] | _ => [acc] end
  | String c r => if Ascii.eqb c newline then acc :: linesFrom EmptyString r else linesFrom (acc ++ String c EmptyString)%string r
  end.
(** driver.cpp 1105-1128. *)
Definition lines (s : string) : list string := linesFrom EmptyString s.
(** [out << l << '\n'] for each line. driver.cpp 1170-1172. *)
Definition unlines (l : list string) : string := fold_right (fun x s => (x ++ nl ++ s)%string) EmptyString l.

(** [while (iss >> tok)]: maximal runs of characters that are not white space.
    driver.cpp 1141-1144. *)
Fixpoint tokensFrom (acc : string) (s : string) : list string :=
  match s with
  | EmptyString => match acc with EmptyString => [] | _ => [acc] end
  | String c r =>
      if isspace c then match acc with EmptyString => tokensFrom EmptyString r | _ => acc :: tokensFrom EmptyString r end
      else tokensFrom (acc ++ String c EmptyString)%string r
  end.
(** driver.cpp 1141-1144. *)
Definition tokens (s : string) : list string := tokensFrom EmptyString s.

(** line.find(m) != npos. Used in [splitLoop], driver.cpp 1105-1128. *)
Fixpoint contains (m s : string) : bool :=
  prefix m s || match s with EmptyString => false | String _ r => contains m r end.

(** ** Integers. Used in [stoi], driver.cpp 1147. *)
Definition digit (c : ascii) : option Z :=
  let n := Z.of_nat (nat_of_ascii c) in if (48 <=? n) && (n <=? 57) then Some (n - 48) else None.
(** Digits from the front; the rest of the text. Used in [stoi], driver.cpp 1147. *)
Fixpoint digits (acc : Z) (s : string) : Z * string :=
  match s with
  | String c r => match digit c with Some d => digits (10 * acc + d) r | None => (acc, s) end
  | EmptyString => (acc, s)
  end.
(** Used in [stoi], driver.cpp 1147. *)
Fixpoint skipws (s : string) : string :=
  match s with String c r => if isspace c then skipws r else s | EmptyString => s end.
(** Used in [stoi], driver.cpp 1147. *)
Definition inInt (z : Z) : bool := (-2147483648 <=? z) && (z <=? 2147483647).

(** Used in [stoi], driver.cpp 1147. *)
Inductive parsed := NoNumber | TooBig | Num (z : Z) (rest : string).
(** White space, an optional sign and at least one digit (strtol base 10, num_get %d).
    Used in [stoi], driver.cpp 1147. *)
Definition number (s : string) : parsed :=
  let go (neg : bool) (t : string) :=
    match t with
    | String c _ => match digit c with
                    | Some _ => let '(z, r) := digits 0 t in let v := if neg then - z else z in
                                if inInt v then Num v r else TooBig
                    | None => NoNumber
                    end
    | EmptyString => NoNumber
    end in
  match skipws s with
  | String c r => if Ascii.eqb c "-" then go true r else if Ascii.eqb c "+" then go false r else go false (String c r)
  | EmptyString => NoNumber
  end.
(** std::stoi: throws invalid_argument or out_of_range. driver.cpp 1147. *)
Definition stoi (s : string) : res Z := match number s with Num z _ => Ok z | _ => Throw end.
(** [iss >> id >> etype] succeeding, with its second value, driver.cpp 1068-1069. *)
Definition secondInt (line : string) : option Z :=
  match number line with
  | Num _ r => match number r with Num z _ => Some z | _ => None end
  | _ => None
  end.
(** std::to_string(int) for a non-negative int. Used in [fixTokens], driver.cpp 1140-1160. *)
Definition to_string (n : nat) : string := NilZero.string_of_uint (Nat.to_uint n).

(** ** Element types, driver.cpp 1057-1081 *)
Definition has (l : list Z) (z : Z) : bool := existsb (Z.eqb z) l.
(** Used in [shouldDeleteElement], driver.cpp 1076-1081. *)
Definition kPointTypes : list Z := [15].
(** Used in [shouldDeleteElement], driver.cpp 1076-1081. *)
Definition kLineTypes : list Z := [1; 8; 26; 27; 28].
(** Used in [detectFrom], driver.cpp 1063-1074. *)
Definition kTetTypes : list Z := [4; 11; 29].
(** Used in [detectFrom], driver.cpp 1063-1074. *)
Definition kTriTypes : list Z := [2; 9; 20; 21].

(** detectMeshDimension driver.cpp 1063-1074. *)
Fixpoint detectFrom (dim : Z) (l : list string) : Z :=
  match l with
  | [] => dim
  | line :: r =>
      match secondInt line with
      | None => detectFrom dim r
      | Some t => if has kTetTypes t then 3 else detectFrom (if has kTriTypes t then Z.max dim 2 else dim) r
      end
  end.
(** driver.cpp 1063-1074. *)
Definition detectMeshDimension (l : list string) : Z := detectFrom 1 l.

(** shouldDeleteElement driver.cpp 1076-1081. *)
Definition shouldDeleteElement (etype dim : Z) : bool :=
  if dim =? 3 then has kPointTypes etype || has kLineTypes etype
  else if dim =? 2 then has kPointTypes etype
  else false.

(** ** fixGmshMesh driver.cpp 1083-1174 *)

(** Lines read so far: header, elements, footer, in_elements, reading_elements. *)
Record split := mkSplit { sp_head : list string; sp_elem : list string; sp_foot : list string; sp_in : bool; sp_reading : bool }.
(** The loop driver.cpp 1105-1128.  A "$Elements" line takes the next line with it; if there
    is none the loop ends. *)
Fixpoint splitLoop (l : list string) (s : split) : split :=
  match l with
  | [] => s
  | line :: r =>
      if contains "$Elements" line && negb (sp_in s) then
        match r with
        | [] => mkSplit (sp_head s ++ [line]) (sp_elem s) (sp_foot s) true (sp_reading s)
        | cnt :: r' => splitLoop r' (mkSplit (sp_head s ++ [line; cnt]) (sp_elem s) (sp_foot s) true true)
        end
      else if contains "$EndElements" line then
        splitLoop r (mkSplit (sp_head s) (sp_elem s) (sp_foot s ++ [line]) (sp_in s) false)
      else if sp_reading s then
        splitLoop r (mkSplit (sp_head s) (sp_elem s ++ [line]) (sp_foot s) (sp_in s) true)
      else match sp_foot s with
           | [] => splitLoop r (mkSplit (sp_head s ++ [line]) (sp_elem s) [] (sp_in s) false)
           | _ => splitLoop r (mkSplit (sp_head s) (sp_elem s) (sp_foot s ++ [line]) (sp_in s) false)
           end
  end.

(** Tokens joined by single spaces, driver.cpp 1154-1159. *)
Fixpoint joinsp (l : list string) : string :=
  match l with [] => EmptyString | [x] => x | x :: r => (x ++ String " " (joinsp r))%string end.

(** The loop driver.cpp 1140-1160: fixed lines and next id.  [tokens[3] = tokens[4]]. *)
Definition fixTokens (id : nat) (ts : list string) : list string :=
  match ts with
  | _ :: t1 :: t2 :: _ :: t4 :: r => to_string id :: t1 :: t2 :: t4 :: t4 :: r
  | _ => ts
  end.
(** driver.cpp 1140-1160. *)
Fixpoint fixLoop (dim : Z) (id : nat) (l : list string) : res (list string) :=
  match l with
  | [] => Ok []
  | raw :: r =>
      let ts := tokens raw in
      if (List.length ts <? 5)%nat then fixLoop dim id r
      else
        etype <- stoi (nth 1 ts EmptyString) ;;
        if shouldDeleteElement etype dim then fixLoop dim id r
        else if 2147483647 <=? Z.of_nat id then UB      (* new_id++ overflows *)
        else rest <- fixLoop dim (S id) r ;; Ok (joinsp (fixTokens id ts) :: rest)
  end.

(** header_lines.back() = n. driver.cpp 1164-1165. *)
Definition setLast (l : list string) (x : string) : res (list string) :=
  match l with [] => UB | _ => Ok (removelast l ++ [x]) end.

(** The new content of the file, or [None] when nothing is written. driver.cpp 1092-1173. *)
Definition fixText (content : string) : res (option string) :=
  let s := splitLoop (lines content) (mkSplit [] [] [] false false) in
  match sp_elem s with
  | [] => Ok None
  | _ =>
      let dim := detectMeshDimension (sp_elem s) in
      fixed <- fixLoop dim 1 (sp_elem s) ;;
      head <- setLast (sp_head s) (to_string (List.length fixed)) ;;
      Ok (Some (unlines (head ++ fixed ++ sp_foot s)))
  end.

(** The file name must end in .msh: [rfind('.')] and [substr], driver.cpp 1086-1090. *)
Fixpoint fromLastDot (s : string) : option string :=
  match s with
  | EmptyString => None
  | String c r => match fromLastDot r with
                  | Some t => Some t
                  | None => if Ascii.eqb c "." then Some s else None
                  end
  end.
(** driver.cpp 1086-1090. *)
Definition isMsh (path : string) : bool :=
  match fromLastDot path with Some e => String.eqb e ".msh" | None => false end.

(** The file after the call: [None] if it cannot be opened. driver.cpp 1083-1174. *)
Definition fixGmshMesh (path : string) (file : option string) : res (option string) :=
  if negb (isMsh path) then Ok file
  else match file with
       | None => Ok None
       | Some c => r <- fixText c ;; Ok (match r with None => Some c | Some c' => Some c' end)
       end.

(** ** The file on disk while the call runs

    Opening with std::ios::trunc empties the file; the text then reaches the disk
    in pieces, at times the library chooses (buffer flushes).  A crash leaves what
    is there. driver.cpp 1168-1173. *)
Inductive disk (c c' : string) : string -> Prop :=
| disk_before : disk c c' c
| disk_during : forall p r, c' = (p ++ r)%string -> disk c c' p.
(** The contents a crash during the call can leave. driver.cpp 1168-1173. *)
Definition crashStates (content : string) (d : string) : Prop :=
  match fixText content with
  | Ok (Some c') => disk content c' d
  | _ => d = content
  end.
