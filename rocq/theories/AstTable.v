(** AstTable.v - the classes of pyverilog/vparser/ast.py: for each class the names in attr_names, and
    the fields that children() takes, in order. [One f] is "if self.f: nodelist.append(self.f)",
    [Many f] is "if self.f: nodelist.extend(self.f)". Each line cites the class in ast.py; a subclass
    without own attr_names or children() has those of its parent. Generated by scripts/asttable.py
    from the source text. *)
From Verif Require Import Base.

Inductive kid := One (f : string) | Many (f : string).
Record class := Class { c_name : string; c_attrs : list string; c_kids : list kid }.
Definition classes : list class := [
  (* ast.py:83-95 *) Class "Source" ["name"] [One "description"];
  (* ast.py:98-109 *) Class "Description" [] [Many "definitions"];
  (* ast.py:112-131 *) Class "ModuleDef" ["name"] [One "paramlist"; One "portlist"; Many "items"];
  (* ast.py:134-145 *) Class "Paramlist" [] [Many "params"];
  (* ast.py:148-159 *) Class "Portlist" [] [Many "ports"];
  (* ast.py:162-176 *) Class "Port" ["name"; "type"] [One "width"];
  (* ast.py:179-193 *) Class "Width" [] [One "msb"; One "lsb"];
  (* ast.py:196-197 *) Class "Length" [] [One "msb"; One "lsb"];
  (* ast.py:200-211 *) Class "Dimensions" [] [Many "lengths"];
  (* ast.py:214-231 *) Class "Identifier" ["name"] [One "scope"];
  (* ast.py:234-245 *) Class "Value" [] [One "value"];
  (* ast.py:248-260 *) Class "Constant" ["value"] [];
  (* ast.py:263-264 *) Class "IntConst" ["value"] [];
  (* ast.py:267-268 *) Class "FloatConst" ["value"] [];
  (* ast.py:271-272 *) Class "StringConst" ["value"] [];
  (* ast.py:275-294 *) Class "Variable" ["name"; "signed"] [One "width"; One "dimensions"; One "value"];
  (* ast.py:297-298 *) Class "Input" ["name"; "signed"] [One "width"; One "dimensions"; One "value"];
  (* ast.py:301-302 *) Class "Output" ["name"; "signed"] [One "width"; One "dimensions"; One "value"];
  (* ast.py:305-306 *) Class "Inout" ["name"; "signed"] [One "width"; One "dimensions"; One "value"];
  (* ast.py:309-310 *) Class "Tri" ["name"; "signed"] [One "width"; One "dimensions"; One "value"];
  (* ast.py:313-314 *) Class "Wire" ["name"; "signed"] [One "width"; One "dimensions"; One "value"];
  (* ast.py:317-318 *) Class "Reg" ["name"; "signed"] [One "width"; One "dimensions"; One "value"];
  (* ast.py:321-322 *) Class "Integer" ["name"; "signed"] [One "width"; One "dimensions"; One "value"];
  (* ast.py:325-326 *) Class "Real" ["name"; "signed"] [One "width"; One "dimensions"; One "value"];
  (* ast.py:329-330 *) Class "Genvar" ["name"; "signed"] [One "width"; One "dimensions"; One "value"];
  (* ast.py:333-347 *) Class "Ioport" [] [One "first"; One "second"];
  (* ast.py:350-367 *) Class "Parameter" ["name"; "signed"] [One "value"; One "width"];
  (* ast.py:370-371 *) Class "Localparam" ["name"; "signed"] [One "value"; One "width"];
  (* ast.py:374-375 *) Class "Supply" ["name"; "signed"] [One "value"; One "width"];
  (* ast.py:378-389 *) Class "Decl" [] [Many "list"];
  (* ast.py:392-403 *) Class "Concat" [] [Many "list"];
  (* ast.py:406-407 *) Class "LConcat" [] [Many "list"];
  (* ast.py:410-424 *) Class "Repeat" [] [One "value"; One "times"];
  (* ast.py:427-444 *) Class "Partselect" [] [One "var"; One "msb"; One "lsb"];
  (* ast.py:447-461 *) Class "Pointer" [] [One "var"; One "ptr"];
  (* ast.py:464-475 *) Class "Lvalue" [] [One "var"];
  (* ast.py:478-489 *) Class "Rvalue" [] [One "var"];
  (* ast.py:493-514 *) Class "Operator" [] [One "left"; One "right"];
  (* ast.py:517-528 *) Class "UnaryOperator" [] [One "right"];
  (* ast.py:532-533 *) Class "Uplus" [] [One "right"];
  (* ast.py:536-537 *) Class "Uminus" [] [One "right"];
  (* ast.py:540-541 *) Class "Ulnot" [] [One "right"];
  (* ast.py:544-545 *) Class "Unot" [] [One "right"];
  (* ast.py:548-549 *) Class "Uand" [] [One "right"];
  (* ast.py:552-553 *) Class "Unand" [] [One "right"];
  (* ast.py:556-557 *) Class "Uor" [] [One "right"];
  (* ast.py:560-561 *) Class "Unor" [] [One "right"];
  (* ast.py:564-565 *) Class "Uxor" [] [One "right"];
  (* ast.py:568-569 *) Class "Uxnor" [] [One "right"];
  (* ast.py:573-574 *) Class "Power" [] [One "left"; One "right"];
  (* ast.py:577-578 *) Class "Times" [] [One "left"; One "right"];
  (* ast.py:581-582 *) Class "Divide" [] [One "left"; One "right"];
  (* ast.py:585-586 *) Class "Mod" [] [One "left"; One "right"];
  (* ast.py:590-591 *) Class "Plus" [] [One "left"; One "right"];
  (* ast.py:594-595 *) Class "Minus" [] [One "left"; One "right"];
  (* ast.py:599-600 *) Class "Sll" [] [One "left"; One "right"];
  (* ast.py:603-604 *) Class "Srl" [] [One "left"; One "right"];
  (* ast.py:607-608 *) Class "Sla" [] [One "left"; One "right"];
  (* ast.py:611-612 *) Class "Sra" [] [One "left"; One "right"];
  (* ast.py:616-617 *) Class "LessThan" [] [One "left"; One "right"];
  (* ast.py:620-621 *) Class "GreaterThan" [] [One "left"; One "right"];
  (* ast.py:624-625 *) Class "LessEq" [] [One "left"; One "right"];
  (* ast.py:628-629 *) Class "GreaterEq" [] [One "left"; One "right"];
  (* ast.py:633-634 *) Class "Eq" [] [One "left"; One "right"];
  (* ast.py:637-638 *) Class "NotEq" [] [One "left"; One "right"];
  (* ast.py:641-642 *) Class "Eql" [] [One "left"; One "right"];
  (* ast.py:645-646 *) Class "NotEql" [] [One "left"; One "right"];
  (* ast.py:650-651 *) Class "And" [] [One "left"; One "right"];
  (* ast.py:654-655 *) Class "Xor" [] [One "left"; One "right"];
  (* ast.py:658-659 *) Class "Xnor" [] [One "left"; One "right"];
  (* ast.py:663-664 *) Class "Or" [] [One "left"; One "right"];
  (* ast.py:668-669 *) Class "Land" [] [One "left"; One "right"];
  (* ast.py:673-674 *) Class "Lor" [] [One "left"; One "right"];
  (* ast.py:678-695 *) Class "Cond" [] [One "cond"; One "true_value"; One "false_value"];
  (* ast.py:698-718 *) Class "Assign" [] [One "left"; One "right"; One "ldelay"; One "rdelay"];
  (* ast.py:721-735 *) Class "Always" [] [One "sens_list"; One "statement"];
  (* ast.py:738-739 *) Class "AlwaysFF" [] [One "sens_list"; One "statement"];
  (* ast.py:742-743 *) Class "AlwaysComb" [] [One "sens_list"; One "statement"];
  (* ast.py:746-747 *) Class "AlwaysLatch" [] [One "sens_list"; One "statement"];
  (* ast.py:750-761 *) Class "SensList" [] [Many "list"];
  (* ast.py:764-776 *) Class "Sens" ["type"] [One "sig"];
  (* ast.py:779-799 *) Class "Substitution" [] [One "left"; One "right"; One "ldelay"; One "rdelay"];
  (* ast.py:802-803 *) Class "BlockingSubstitution" [] [One "left"; One "right"; One "ldelay"; One "rdelay"];
  (* ast.py:806-807 *) Class "NonblockingSubstitution" [] [One "left"; One "right"; One "ldelay"; One "rdelay"];
  (* ast.py:810-827 *) Class "IfStatement" [] [One "cond"; One "true_statement"; One "false_statement"];
  (* ast.py:830-850 *) Class "ForStatement" [] [One "pre"; One "cond"; One "post"; One "statement"];
  (* ast.py:853-867 *) Class "WhileStatement" [] [One "cond"; One "statement"];
  (* ast.py:870-884 *) Class "CaseStatement" [] [One "comp"; Many "caselist"];
  (* ast.py:887-888 *) Class "CasexStatement" [] [One "comp"; Many "caselist"];
  (* ast.py:891-892 *) Class "CasezStatement" [] [One "comp"; Many "caselist"];
  (* ast.py:895-896 *) Class "UniqueCaseStatement" [] [One "comp"; Many "caselist"];
  (* ast.py:899-913 *) Class "Case" [] [Many "cond"; One "statement"];
  (* ast.py:916-928 *) Class "Block" ["scope"] [Many "statements"];
  (* ast.py:931-942 *) Class "Initial" [] [One "statement"];
  (* ast.py:945-956 *) Class "EventStatement" [] [One "senslist"];
  (* ast.py:959-973 *) Class "WaitStatement" [] [One "cond"; One "statement"];
  (* ast.py:976-987 *) Class "ForeverStatement" [] [One "statement"];
  (* ast.py:990-1001 *) Class "DelayStatement" [] [One "delay"];
  (* ast.py:1004-1019 *) Class "InstanceList" ["module"] [Many "parameterlist"; Many "instances"];
  (* ast.py:1022-1041 *) Class "Instance" ["name"; "module"] [One "array"; Many "parameterlist"; Many "portlist"];
  (* ast.py:1044-1056 *) Class "ParamArg" ["paramname"] [One "argname"];
  (* ast.py:1059-1071 *) Class "PortArg" ["portname"] [One "argname"];
  (* ast.py:1074-1092 *) Class "Function" ["name"] [One "retwidth"; Many "statement"];
  (* ast.py:1095-1112 *) Class "FunctionCall" [] [One "name"; Many "args"];
  (* ast.py:1115-1127 *) Class "Task" ["name"] [Many "statement"];
  (* ast.py:1130-1144 *) Class "TaskCall" [] [One "name"; Many "args"];
  (* ast.py:1147-1158 *) Class "GenerateStatement" [] [Many "items"];
  (* ast.py:1161-1184 *) Class "SystemCall" ["syscall"] [Many "args"];
  (* ast.py:1187-1197 *) Class "IdentifierScopeLabel" ["name"; "loop"] [];
  (* ast.py:1200-1211 *) Class "IdentifierScope" [] [Many "labellist"];
  (* ast.py:1214-1225 *) Class "Pragma" [] [One "entry"];
  (* ast.py:1228-1240 *) Class "PragmaEntry" ["name"] [One "value"];
  (* ast.py:1243-1252 *) Class "Disable" ["dest"] [];
  (* ast.py:1255-1267 *) Class "ParallelBlock" ["scope"] [Many "statements"];
  (* ast.py:1270-1281 *) Class "SingleStatement" [] [One "statement"];
  (* ast.py:1284-1292 *) Class "EmbeddedCode" ["code"] []
]%string.
