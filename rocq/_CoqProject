-Q theories Verif
theories/Base.v
theories/ScopeModel.v
theories/ScopeSpec.v
theories/ScopeProofs.v
theories/ScopeProps.v
theories/DfModel.v
theories/DfSpec.v
theories/DfProofs.v
theories/DfProps.v
theories/ReorderModel.v
theories/ReorderSpec.v
theories/ReorderProofs.v
theories/ReorderProps.v
theories/SplitModel.v
theories/SplitSpec.v
theories/SplitProofs.v
theories/SplitProps.v
theories/TransModel.v
theories/TransSpec.v
theories/TransProofs.v
theories/TransProps.v
theories/BindModel.v
theories/BindSpec.v
theories/BindProofs.v
theories/BindProps.v
theories/SubsetModel.v
theories/SubsetSpec.v
theories/SubsetProofs.v
theories/SubsetProofs2.v
theories/SubsetProps.v
theories/FsmModel.v
theories/FsmSpec.v
theories/FsmProofs.v
theories/FsmProofs2.v
theories/FsmProps.v
theories/LitModel.v
theories/LitSpec.v
theories/LitProofs.v
theories/LitProps.v
theories/OptModel.v
theories/OptSpec.v
theories/OptArith.v
theories/OptProofs.v
theories/OptProofs2.v
theories/OptProps.v
theories/HierModel.v
theories/HierSpec.v
theories/HierProofs.v
theories/HierProofs2.v
theories/HierProofs3.v
theories/HierConcat.v
theories/HierMain.v
theories/HierPart.v
theories/HierProps.v
theories/MergeModel.v
theories/MergeSpec.v
theories/MergeProofs.v
theories/MergeProofs2.v
theories/MergeProofs3.v
theories/MergeProps.v
theories/LexModel.v
theories/LexSpec.v
theories/LexProofs.v
theories/LexProps.v
theories/ExprModel.v
theories/ParseModel.v
theories/ExprSpec.v
theories/ExprLex.v
theories/ExprText.v
theories/ExprText2.v
theories/ExprText3.v
theories/ExprParse.v
theories/ExprSound.v
theories/ExprProps.v
theories/CodeModel.v
theories/CodeSpec.v
theories/CodeProofs.v
theories/CodeProps.v
theories/WalkModel.v
theories/WalkSpec.v
theories/WalkProofs.v
theories/WalkProofs2.v
theories/WalkProofs3.v
theories/WalkFuel.v
theories/WalkProps.v
theories/ResolveModel.v
theories/ResolveSpec.v
theories/ResolveProofs.v
theories/ResolveProps.v
theories/VisitModel.v
theories/VisitSpec.v
theories/VisitProofs.v
theories/VisitProofs2.v
theories/VisitProps.v
theories/PreModel.v
theories/PreSpec.v
theories/PreProps.v
theories/AstTable.v
theories/AstModel.v
theories/AstSpec.v
theories/AstProofs.v
theories/AstProofs2.v
theories/AstProps.v
theories/RenModel.v
theories/RenSpec.v
theories/RenProofs.v
theories/RenProofs2.v
theories/RenProps.v
theories/GraphModel.v
theories/GraphSpec.v
theories/GraphProps.v
theories/ActiveModel.v
theories/ActiveSpec.v
theories/ActiveProofs.v
theories/ActiveProofs2.v
theories/ActiveProofs3.v
theories/ActiveProofs4.v
theories/ActiveProofs5.v
theories/ActiveProofs6.v
theories/ActiveProps.v
theories/ScopeFlatSpec.v
theories/ScopeFlat.v
theories/AsgModel.v
theories/AsgSpec.v
theories/AsgProofs.v
theories/AsgProofs2.v
theories/AsgProofs3.v
theories/AsgProofs4.v
theories/AsgProps.v
theories/MergeSpec2.v
theories/MergeProofs4.v
theories/MergeProofs5.v
theories/MergeProps2.v
theories/WalkProps2.v
theories/HierProps2.v
theories/VisitProps2.v
theories/WidthSpec.v
theories/WidthProps.v
theories/ResolveProps2.v
theories/MkModel.v
theories/MkSpec.v
theories/MkProps.v
theories/BlkModel.v
theories/BlkSpec.v
theories/BlkProofs.v
theories/BlkProofs2.v
theories/BlkProofs3.v
theories/BlkProofs4.v
theories/BlkProofs5.v
theories/BlkProofs6.v
theories/BlkNames.v
theories/BlkProps.v
theories/StmModel.v
theories/StmSpec.v
theories/StmText.v
theories/StmText2.v
theories/StmText3.v
theories/StmParse.v
theories/StmParse2.v
theories/StmParse3.v
theories/StmParse4.v
theories/StmSound.v
theories/StmFuel.v
theories/StmProps.v
theories/ElabModel.v
theories/ElabSpec.v
theories/ElabProofs.v
theories/ElabProofs2.v
theories/ElabProofs3.v
theories/ElabProofs4.v
theories/ElabProofs5.v
theories/ElabProofs6.v
theories/ElabProofs7.v
theories/ElabProofs8.v
theories/ElabProofs9.v
theories/ElabProps.v
theories/PrecSpec.v
theories/PrecProofs.v
theories/PrecProofs2.v
theories/PrecProps.v
theories/ConModel.v
theories/ConSpec.v
theories/ConProofs.v
theories/ConProofs2.v
theories/ConProofs3.v
theories/ConProps.v
theories/MachModel.v
theories/MachSpec.v
theories/MachText.v
theories/MachProofs.v
theories/MachProofs2.v
theories/MachProofs3.v
theories/MachProps.v
theories/SrcModel.v
theories/SrcSpec.v
theories/SrcText.v
theories/SrcText2.v
theories/SrcText3.v
theories/SrcText4.v
theories/SrcParse.v
theories/SrcParse2.v
theories/SrcParse3.v
theories/SrcFuel.v
theories/SrcSound.v
theories/SrcProps.v
theories/SensModel.v
theories/SensSpec.v
theories/SensProofs.v
theories/SensProofs2.v
theories/SensProps.v
theories/EmitModel.v
theories/EmitSpec.v
theories/EmitProofs.v
theories/EmitParse.v
theories/EmitItems.v
theories/EmitDecls.v
theories/EmitModule.v
theories/EmitEntire.v
theories/EmitProps.v
theories/WhenModel.v
theories/WhenSpec.v
theories/WhenProofs.v
theories/WhenProofs2.v
theories/WhenProofs3.v
theories/WhenProps.v
theories/LoopModel.v
theories/LoopSpec.v
theories/LoopProofs.v
theories/LoopProofs2.v
theories/LoopProofs3.v
theories/LoopProofs4.v
theories/LoopProofs5.v
theories/LoopProps.v
theories/NameModel.v
theories/NameSpec.v
theories/NameProofs.v
theories/NameProps.v
theories/FunModel.v
theories/FunSpec.v
theories/FunProofs.v
theories/FunProofs2.v
theories/FunProofs3.v
theories/FunProofs4.v
theories/FunProofs5.v
theories/FunProofs6.v
theories/FunProps.v
theories/RngModel.v
theories/RngSpec.v
theories/RngProofs.v
theories/RngProps.v
theories/ParModel.v
theories/ParSpec.v
theories/ParProofs.v
theories/ParProofs2.v
theories/ParProps.v
theories/LoopProps2.v
theories/ShowModel.v
theories/ShowSpec.v
theories/ShowProofs.v
theories/ShowProps.v
theories/RngTreeModel.v
theories/RngTreeSpec.v
theories/RngTreeProps.v
theories/PbModel.v
theories/PbSpec.v
theories/PbProofs.v
theories/PbProps.v
theories/LstModel.v
theories/LstSpec.v
theories/LstProofs.v
theories/LstProps.v
theories/LstProofs2.v
theories/LstProofs3.v
theories/AccSpec.v
theories/AccProofs.v
theories/AccProofs2.v
theories/AccProofs3.v
theories/AccProofs4.v
theories/AccProofs5.v
theories/AccProps.v
theories/PbProps2.v
theories/BacSpec.v
theories/BacProofs.v
theories/BacProofs2.v
theories/BacProofs3.v
theories/BacProps.v
theories/NacSpec.v
theories/NacProofs.v
theories/NacProps.v
theories/PartsModel.v
theories/PartsSpec.v
theories/PartsProofs.v
theories/PartsProps.v
theories/WordModel.v
theories/WordSpec.v
theories/WordProofs.v
theories/WordProps.v
theories/NestModel.v
theories/NestSpec.v
theories/NestProofs.v
theories/NestProps.v
theories/WordCondModel.v
theories/WordCondSpec.v
theories/WordCondProps.v
theories/WordStmModel.v
theories/WordStmSpec.v
theories/WordStmProps.v
