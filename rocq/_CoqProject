-Q theories Verif
theories/AliasModel.v
theories/AliasProofs.v
theories/AliasProps.v
theories/AliasSpec.v
theories/BlockModel.v
theories/BlockProofs.v
theories/BlockProps.v
theories/BlockSpec.v
theories/BtModel.v
theories/BtProofs.v
theories/BtProofs2.v
theories/BtProofs3.v
theories/BtProofs4.v
theories/BtProofs5.v
theories/BtProofs6.v
theories/BtProofs7.v
theories/BtProps.v
theories/BtSpec.v
theories/ByteOrd.v
theories/Bytes.v
theories/CSchemaModel.v
theories/CSchemaProofs.v
theories/CSchemaProps.v
theories/CSchemaSpec.v
theories/CatModel.v
theories/CatProofs.v
theories/CatProps.v
theories/CatSpec.v
theories/CixModel.v
theories/CixProofs.v
theories/CixProps.v
theories/CixSpec.v
theories/CrashFind.v
theories/CrashInv.v
theories/CrashModel.v
theories/CrashNormal.v
theories/CrashProofs.v
theories/CrashProps.v
theories/CrashRecov.v
theories/CrashSpec.v
theories/Crc32cModel.v
theories/Crc32cProofs.v
theories/Crc32cSpec.v
theories/CreModel.v
theories/CreProofs.v
theories/CreProps.v
theories/CreSpec.v
theories/CurModel.v
theories/CurProofs.v
theories/CurProps.v
theories/CurSpec.v
theories/DSchModel.v
theories/DSchProofs.v
theories/DSchProps.v
theories/DSchSpec.v
theories/DdlModel.v
theories/DdlProofs.v
theories/DdlProps.v
theories/DdlSpec.v
theories/DixModel.v
theories/DixProofs.v
theories/DixProps.v
theories/DixSpec.v
theories/DmlModel.v
theories/DmlProofs.v
theories/DmlProps.v
theories/DmlSpec.v
theories/DocModel.v
theories/DocPackModel.v
theories/DocPackProofs.v
theories/DocPackProps.v
theories/DocPackSpec.v
theories/DocProofs.v
theories/DocProps.v
theories/DocSpec.v
theories/ExecModel.v
theories/ExecProofs.v
theories/ExecProps.v
theories/ExecSpec.v
theories/FixedModel.v
theories/FixedProofs.v
theories/FixedProps.v
theories/FixedSpec.v
theories/GapFile.v
theories/GapModel.v
theories/GapProofs.v
theories/GapProps.v
theories/GapSpec.v
theories/GlobModel.v
theories/GlobProofs.v
theories/GlobProps.v
theories/GlobSpec.v
theories/GroupModel.v
theories/GroupProofs.v
theories/GroupProps.v
theories/GroupSpec.v
theories/IdnModel.v
theories/IdnProofs.v
theories/IdnProps.v
theories/IdnSpec.v
theories/IndexModel.v
theories/IndexProofs.v
theories/IndexProps.v
theories/IndexSpec.v
theories/IndexingModel.v
theories/IndexingProofs.v
theories/IndexingProps.v
theories/IndexingSpec.v
theories/IxMetaModel.v
theories/IxMetaProofs.v
theories/IxMetaProofs2.v
theories/IxMetaProofs3.v
theories/IxMetaProps.v
theories/IxMetaSpec.v
theories/JoinModel.v
theories/JoinProofs.v
theories/JoinProps.v
theories/JoinSpec.v
theories/JsonModel.v
theories/JsonProofs.v
theories/JsonProps.v
theories/JsonPtrModel.v
theories/JsonPtrProofs.v
theories/JsonPtrProps.v
theories/JsonPtrSpec.v
theories/JsonSpec.v
theories/LValModel.v
theories/LValProofs.v
theories/LValProps.v
theories/LValSpec.v
theories/LockModel.v
theories/LockProofs.v
theories/LockProps.v
theories/MetaModel.v
theories/MetaProofs.v
theories/MetaProps.v
theories/MetaSpec.v
theories/MsgpackModel.v
theories/MsgpackProofs.v
theories/NestModel.v
theories/NestProofs.v
theories/NestProps.v
theories/NestSpec.v
theories/OMap.v
theories/OidModel.v
theories/OidProofs.v
theories/OidProps.v
theories/Outcome.v
theories/PhysModel.v
theories/PhysProofs.v
theories/PhysProps.v
theories/PhysSpec.v
theories/PoolModel.v
theories/PoolProofs.v
theories/PoolProps.v
theories/PoolSpec.v
theories/PyModel.v
theories/PyProofs.v
theories/PyProps.v
theories/PySpec.v
theories/PyfModel.v
theories/PyfProofs.v
theories/PyfProps.v
theories/PyfSpec.v
theories/PyuModel.v
theories/PyuProofs.v
theories/PyuProps.v
theories/PyuSpec.v
theories/QueryModel.v
theories/QueryProofs.v
theories/QueryProps.v
theories/QuerySpec.v
theories/RowDelModel.v
theories/RowDelProofs.v
theories/RowDelProps.v
theories/RowDelSpec.v
theories/RowGrpModel.v
theories/RowGrpProofs.v
theories/RowGrpProps.v
theories/RowGrpSpec.v
theories/SDiffModel.v
theories/SDiffProofs.v
theories/SDiffProps.v
theories/SDiffSpec.v
theories/SegCutModel.v
theories/SegCutProofs.v
theories/SegCutProofs2.v
theories/SegCutProps.v
theories/SegCutSpec.v
theories/SegModel.v
theories/SegProofs.v
theories/SegProps.v
theories/SegSpec.v
theories/SelModel.v
theories/SelProofs.v
theories/SelProps.v
theories/SelSpec.v
theories/SetModel.v
theories/SetProofs.v
theories/SetProps.v
theories/SetSpec.v
theories/SqlModel.v
theories/SqlProofs.v
theories/SqlProps.v
theories/SqlSpec.v
theories/StmtModel.v
theories/StmtProofs.v
theories/StmtProofs2.v
theories/StmtProofs3.v
theories/StmtProps.v
theories/StmtSpec.v
theories/StrSegModel.v
theories/StrSegProofs.v
theories/StrSegProofs2.v
theories/StrSegProofs3.v
theories/StrSegProps.v
theories/StrSegSpec.v
theories/TAggGroup.v
theories/TAggModel.v
theories/TAggProofs.v
theories/TAggProps.v
theories/TAggSpec.v
theories/TIdModel.v
theories/TIdProofs.v
theories/TIdProps.v
theories/TIdSpec.v
theories/TIxModel.v
theories/TIxProofs.v
theories/TIxProps.v
theories/TIxSpec.v
theories/TapeModel.v
theories/TapeProofs.v
theories/TapeProps.v
theories/TapeSpec.v
theories/TblModel.v
theories/TblProofs.v
theories/TblProps.v
theories/TblSpec.v
theories/TrieModel.v
theories/TrieProofs.v
theories/TxModel.v
theories/TxProofs.v
theories/TxProofs2.v
theories/TxProps.v
theories/TxSpec.v
theories/UpdModel.v
theories/UpdProofs.v
theories/UpdProps.v
theories/UpdSpec.v
theories/VSegModel.v
theories/VSegProofs.v
theories/VSegProofs2.v
theories/VSegProofs3.v
theories/VSegProps.v
theories/VSegSpec.v
theories/ValidModel.v
theories/ValidProofs.v
theories/ValidProofs2.v
theories/ValidProofs3.v
theories/ValidProps.v
theories/ValidSpec.v
theories/VecModel.v
theories/VecProofs.v
theories/VecProofs2.v
theories/VecProps.v
theories/VecSpec.v
theories/VersionModel.v
theories/VersionProofs.v
theories/VersionProps.v
theories/VersionSpec.v
theories/WalModel.v
theories/WalProofs.v
theories/WalProps.v
theories/WalSpec.v
theories/WrapModel.v
theories/WrapProofs.v
theories/WrapProps.v
theories/WrapSpec.v
